(** Facts about production compilation. *)
From Coq Require Import Lia Decimal DecimalString DecimalNat DecimalFacts.
From Verif Require Import Base BaseFacts Chunks DecMem Buffers BufferFacts Productions ProdSpec CycleFacts LearnFacts Sim SimSpec StoryFacts LiftFacts Compile CompileSpec.
Local Open Scope string_scope.
Local Open Scope list_scope.
Local Open Scope nat_scope.

(** ** Lists of results *)

Lemma rmap_Forall2 {A B} (f : A -> res B) l l' : rmap f l = Ok l' -> Forall2 (fun a b => f a = Ok b) l l'.
Proof.
  revert l'. induction l as [|a l IH]; cbn [rmap]; intros l' H; [injection H as <-; constructor|].
  destruct (f a) as [b|] eqn:E; [|discriminate]. cbn in H. destruct (rmap f l) as [bs|]; [|discriminate]. injection H as <-. constructor; auto.
Qed.
Lemma rmap_err {A B} (f : A -> res B) l e : rmap f l = Err e -> exists a, In a l /\ f a = Err e.
Proof.
  induction l as [|a l IH]; cbn [rmap]; [discriminate|]. destruct (f a) as [b|e'] eqn:E; cbn.
  - destruct (rmap f l); cbn; [discriminate|]. intros [= ->]. destruct (IH eq_refl) as (x & X & Ex). exists x. auto using in_cons.
  - intros [= ->]. exists a. auto using in_eq.
Qed.
Lemma Forall2_impl {A B} (R R' : A -> B -> Prop) l l' : (forall a b, R a b -> R' a b) -> Forall2 R l l' -> Forall2 R' l l'.
Proof. intros I. induction 1; constructor; auto. Qed.
Lemma Forall2_In_r {A B} (R : A -> B -> Prop) l l' b : Forall2 R l l' -> In b l' -> exists a, In a l /\ R a b.
Proof. induction 1 as [|x y l l' H F IH]; [intros []|]. intros [<-|I]; [eauto using in_eq|]. destruct (IH I) as (a & ? & ?). eauto using in_cons. Qed.
Lemma Forall2_In_l {A B} (R : A -> B -> Prop) l l' a : Forall2 R l l' -> In a l -> exists b, In b l' /\ R a b.
Proof. induction 1 as [|x y l l' H F IH]; [intros []|]. intros [<-|I]; [eauto using in_eq|]. destruct (IH I) as (b & ? & ?). eauto using in_cons. Qed.

(** ** Renaming *)

Lemma carries_spec code : carries code = true <-> about_chunk code.
Proof.
  unfold carries, about_chunk. rewrite !Bool.orb_true_iff, !Ascii.eqb_eq. tauto.
Qed.
Lemma renamed_inj r x y : renamed x r = renamed y r -> x = y.
Proof. unfold renamed. intros H. exact (append_inj_r _ _ _ H). Qed.
Lemma renamed_not_empty r x : renamed x r <> "".
Proof. unfold renamed. destruct x; discriminate. Qed.
Lemma var_truthy_some o x : var_truthy o = Some x <-> o = Some x /\ x <> "".
Proof.
  destruct o as [[|a s]|]; cbn; split; try discriminate; try (intros [E _]; discriminate).
  - intros [E N]. injection E as <-. destruct N. reflexivity.
  - intros [= <-]. split; [reflexivity|discriminate].
  - intros [E _]. exact E.
Qed.
Lemma var_truthy_none o : var_truthy o = None <-> o = None \/ o = Some "".
Proof. destruct o as [[|a s]|]; cbn; split; auto; try discriminate; intros [|]; discriminate. Qed.

Lemma rename_part_spec r vs s w' : rename_part r vs s = Ok w' ->
  slot_renamed (fun x => renamed x r) (""%string, s) (""%string, Some w').
Proof.
  unfold rename_part. intros H. split; [reflexivity|]. cbn [snd].
  apply rbind_Ok in H. destruct H as (v & Hv & H). apply rbind_Ok in H. destruct H as (nv & Hn & H). injection H as <-.
  assert (V : forall y, v = Some y <-> exists x, vvar (splitting s) = Some x /\ x <> "" /\ y = renamed x r).
  { intros y. destruct (var_truthy (vvar (splitting s))) as [x|] eqn:E.
    - destruct (smem _ _); [discriminate|]. injection Hv as <-. apply var_truthy_some in E. destruct E as [E Ne]. split.
      + intros [= <-]. exists x. auto.
      + intros (x' & E' & _ & ->). rewrite E in E'. injection E' as <-. reflexivity.
    - injection Hv as <-. split; [discriminate|]. intros (x & E' & Ne & _). rewrite E' in E. apply var_truthy_none in E. destruct E; congruence. }
  assert (W : forall y, In y nv <-> exists x, In x (vnegvars (splitting s)) /\ y = renamed x r).
  { intros y. destruct (vnegvars (splitting s)) as [|a l]; [injection Hn as <-; split; [intros []|intros (x & [] & _)]|].
    destruct (smem _ _); [discriminate|]. assert (En : nv = sdedup (map (fun x => renamed x r) (a :: l))) by congruence. rewrite En, sdedup_In, in_map_iff. split; intros (x & A & B); exists x; auto. }
  destruct s as [w|]; cbn [splitting vvals vvar vnegvals vnegvars] in *; [auto|].
  split; [reflexivity|]. split; [|split; [reflexivity|]].
  - destruct v as [y|]; [|reflexivity]. destruct (proj1 (V y) eq_refl) as (x & E & _). discriminate.
  - destruct nv as [|y l]; [reflexivity|]. destruct (proj1 (W y) (or_introl eq_refl)) as (x & [] & _).
Qed.

Lemma with_slots_spec f c c' : with_slots f c = Ok c' ->
  ctype c' = ctype c /\ Forall2 (fun p q => fst q = fst p /\ exists w, snd q = Some w /\ f (snd p) = Ok w) (cslots c) (cslots c').
Proof.
  unfold with_slots. intros H. apply rbind_Ok in H. destruct H as (l & Hl & H). injection H as <-. split; [reflexivity|]. cbn.
  apply rmap_Forall2 in Hl. eapply Forall2_impl; [|exact Hl]. intros p q E. cbn beta in E. destruct (f (snd p)) as [w|]; [|discriminate].
  injection E as <-. split; [reflexivity|]. exists w. auto.
Qed.
(** Applying [f] to every part of every chunk, entry by entry. *)
Definition entry_with (f : slotval -> res vv) (p q : string * content) : Prop :=
  fst q = fst p /\ exists code buff, fst p = String code buff /\
  ((about_chunk code /\ exists c c', snd p = CChunk c /\ snd q = CChunk c' /\ with_slots f c = Ok c') \/
   (~ about_chunk code /\ snd q = snd p)).
Lemma with_parts_spec f side side' : with_parts f side = Ok side' -> Forall2 (entry_with f) side side'.
Proof.
  unfold with_parts. intros H. apply rmap_Forall2 in H. eapply Forall2_impl; [|exact H]. intros [k c] q E. cbn [fst snd] in E.
  unfold entry_with. cbn [fst snd]. destruct k as [|code buff]; [discriminate|]. destruct (carries code) eqn:C.
  - apply rbind_Ok in E. destruct E as (ch & Ec & E). apply rbind_Ok in E. destruct E as (ch' & Ec' & E). injection E as <-.
    split; [reflexivity|]. exists code, buff. split; [reflexivity|]. left. split; [apply carries_spec; exact C|].
    destruct c as [c0| | |]; try discriminate. injection Ec as <-. exists c0, ch'. auto.
  - injection E as <-. split; [reflexivity|]. exists code, buff. split; [reflexivity|]. right. split; [|reflexivity].
    intros A. apply carries_spec in A. congruence.
Qed.
Lemma with_parts_keys f side side' : with_parts f side = Ok side' -> dkeys side' = dkeys side.
Proof.
  intros H. apply with_parts_spec in H. induction H as [|p q l l' E F IH]; [reflexivity|]. destruct E as [E _]. cbn. rewrite E. f_equal. exact IH.
Qed.

(** Renaming changes nothing but the variables. *)
Theorem rename_exact r vs side side' : with_parts (rename_part r vs) side = Ok side' ->
  Forall2 (cond_renamed (fun x => renamed x r)) side side'.
Proof.
  intros H. apply with_parts_spec in H. eapply Forall2_impl; [|exact H]. clear H. intros p q (K & code & buff & Ek & H). split; [exact K|].
  destruct H as [(A & c & c' & Ec & Ec' & H)|(A & H)].
  - left. exists c, c'. split; [exact Ec|]. split; [exact Ec'|]. apply with_slots_spec in H. destruct H as [T F]. split; [exact T|].
    eapply Forall2_impl; [|exact F]. intros a b (E & w & Eb & H). apply rename_part_spec in H. destruct H as [_ H]. split; [exact E|]. rewrite Eb. exact H.
  - right. split; [exact H|]. intros co bu E. rewrite Ek in E. injection E as <- <-. exact A.
Qed.
Lemma slot_renamed_mentions f p q y : slot_renamed f p q -> mentions_var y (snd q) -> exists x, mentions_var x (snd p) /\ y = f x.
Proof.
  intros (_ & H) (w' & E & M). rewrite E in H. destruct (snd p) as [w|].
  - destruct H as (_ & _ & V & W). destruct M as [[M _]|M].
    + apply V in M. destruct M as (x & Ex & Ne & ->). exists x. split; [|reflexivity]. exists w. auto.
    + apply W in M. destruct M as (x & Ex & ->). exists x. split; [|reflexivity]. exists w. auto.
  - destruct H as (_ & V & _ & W). destruct M as [[M _]|M]; [congruence|]. rewrite W in M. destruct M.
Qed.
Lemma rename_occurs r vs side side' y : with_parts (rename_part r vs) side = Ok side' -> occurs y side' -> exists x, occurs x side /\ y = renamed x r.
Proof.
  intros H (code & buff & c' & n & s' & I1 & A & I2 & M). apply rename_exact in H. destruct (Forall2_In_r _ _ _ _ H I1) as ([k c0] & I0 & K & X). cbn [fst snd] in *. subst k.
  destruct X as [(c & c2 & E & E' & _ & F)|(E & N)].
  - injection E' as <-. subst c0. destruct (Forall2_In_r _ _ _ _ F I2) as ([n0 s] & I3 & R). destruct (slot_renamed_mentions _ _ _ _ R M) as (x & Mx & ->).
    exists x. split; [|reflexivity]. exists code, buff, c, n0, s. auto.
  - destruct (N code buff eq_refl A).
Qed.
Theorem rename_apart r vs side1 side2 side2' :
  (forall x, occurs x side2 -> ~ occurs (renamed x r) side1) -> with_parts (rename_part r vs) side2 = Ok side2' ->
  forall y, occurs y side1 -> ~ occurs y side2'.
Proof. intros N H y O1 O2. destruct (rename_occurs _ _ _ _ _ H O2) as (x & Ox & ->). exact (N x Ox O1). Qed.

(** The clash is never reported, unless a variable is written with an additional "=". *)
Theorem rename_never_reports r vs side : (forall x y, In x vs -> x <> String "=" y) ->
  with_parts (rename_part r vs) side <> Err EActr.
Proof.
  intros N H. unfold with_parts in H. apply rmap_err in H. destruct H as ([k c] & _ & H). cbn [fst snd] in H. destruct k as [|code buff]; [discriminate|].
  destruct (carries code); [|discriminate]. destruct c as [c| | |]; try discriminate. cbn in H. destruct (with_slots _ c) eqn:E; [discriminate|]. cbn in H. injection H as ->.
  unfold with_slots in E. destruct (rmap _ _) eqn:E1; [discriminate|]. cbn in E. injection E as ->. apply rmap_err in E1. destruct E1 as ([n s] & _ & E1). cbn [fst snd] in E1.
  assert (M : forall y, smem (String "=" y) vs = false). { intros y. apply smem_not_In. intros I. exact (N _ _ I eq_refl). }
  unfold rename_part in E1. cbn [append] in E1. destruct (var_truthy _) as [x|].
  - rewrite M in E1. cbn in E1. destruct (vnegvars _); [discriminate|]. rewrite M in E1. discriminate.
  - cbn in E1. destruct (vnegvars _); [discriminate|]. rewrite M in E1. discriminate.
Qed.

(** ** Naming the compiled rule *)

Lemma append_inj_l a b t : (t ++ a = t ++ b)%string -> a = b.
Proof. induction t as [|c t IH]; cbn; [auto|]. intros H. injection H as H. auto. Qed.
Lemma append_longer t a : (t ++ a = t)%string -> a = "".
Proof. intros H. apply (append_inj_l _ _ t). rewrite append_nil_r. exact H. Qed.
Lemma nat_str_inj m n : nat_str m = nat_str n -> m = n.
Proof.
  unfold nat_str. intros H. apply Unsigned.to_uint_inj.
  assert (E : NilEmpty.uint_of_string (NilEmpty.string_of_uint (Nat.to_uint m)) = NilEmpty.uint_of_string (NilEmpty.string_of_uint (Nat.to_uint n))) by (f_equal; exact H).
  rewrite !NilEmpty.usu in E. congruence.
Qed.
Lemma compiled_name_inj n1 n2 i j : compiled_name n1 n2 i = compiled_name n1 n2 j -> i = j.
Proof.
  destruct i as [|i], j as [|j]; cbn [compiled_name]; intros H.
  - reflexivity.
  - apply append_inj_l in H. apply append_inj_l in H. symmetry in H. apply append_longer in H. discriminate.
  - apply append_inj_l in H. apply append_inj_l in H. apply append_longer in H. discriminate.
  - do 4 apply append_inj_l in H. apply nat_str_inj in H. exact H.
Qed.
Lemma place_out p rules n1 n2 u1 lhs rhs fuel : forall idx, place p rules n1 n2 u1 lhs rhs idx fuel = Ok None ->
  forall k, k < fuel -> In (compiled_name n1 n2 (idx + k)) (dkeys rules).
Proof.
  induction fuel as [|fuel IH]; cbn [place]; intros idx H k L; [lia|].
  destruct (dget rules (compiled_name n1 n2 idx)) as [old|] eqn:E.
  - destruct lhs as [l|]; [|discriminate]. cbn [rbind] in H. destruct (if side_eqb _ _ then _ else _) as [same|]; [|discriminate]. cbn [rbind] in H. destruct same; [discriminate|].
    destruct k as [|k]; [rewrite Nat.add_0_r; exact (dget_Some_key _ _ E)|]. rewrite <- Nat.add_succ_comm. apply IH; [exact H|lia].
  - destruct lhs as [l|]; [|discriminate]. destruct rhs; discriminate.
Qed.
Theorem place_total p rules n1 n2 u1 lhs rhs : place p rules n1 n2 u1 lhs rhs 0 (S (List.length rules)) <> Ok None.
Proof.
  intros H. pose proof (place_out _ _ _ _ _ _ _ _ _ H) as I. cbn [plus] in I.
  assert (N : NoDup (map (compiled_name n1 n2) (seq 0 (S (List.length rules))))).
  { apply FinFun.Injective_map_NoDup; [intros i j; apply compiled_name_inj|apply seq_NoDup]. }
  apply (NoDup_incl_length (l' := dkeys rules)) in N.
  - rewrite map_length, seq_length in N. unfold dkeys in N. rewrite map_length in N. lia.
  - intros x X. apply in_map_iff in X. destruct X as (k & <- & K). apply in_seq in K. apply I. lia.
Qed.
(** What is placed. *)
Lemma place_cases p rules n1 n2 u1 lhs rhs fuel : forall idx n again rs, place p rules n1 n2 u1 lhs rhs idx fuel = Ok (Some (n, again, rs)) ->
  (exists k, n = compiled_name n1 n2 k) /\
  ((again = false /\ dget rules n = None /\ exists l r, lhs = Ok l /\ rhs = Ok r /\ rs = dset rules n (MkRule l r 0 None)) \/
   (again = true /\ exists old l r, dget rules n = Some old /\ lhs = Ok l /\ rhs = Ok r /\ side_eqb (rlhs old) l = true /\ side_eqb (rrhs old) r = true /\
      rs = if qlearn p then dset rules n (set_util old (round4 (rutil old + qalpha p * (u1 - rutil old)))) else rules)).
Proof.
  induction fuel as [|fuel IH]; cbn [place]; intros idx n again rs H; [discriminate|].
  destruct (dget rules (compiled_name n1 n2 idx)) as [old|] eqn:E.
  - destruct lhs as [l|]; [|discriminate]. cbn [rbind] in H. destruct (side_eqb (rlhs old) l) eqn:El.
    + destruct rhs as [r|]; [|discriminate]. cbn [rbind] in H. destruct (side_eqb (rrhs old) r) eqn:Er; [|exact (IH _ _ _ _ H)].
      injection H as <- <- <-. split; [eauto|]. right. split; [reflexivity|]. exists old, l, r. auto 8.
    + exact (IH _ _ _ _ H).
  - destruct lhs as [l|]; [|discriminate]. destruct rhs as [r|]; [|discriminate]. cbn [rbind] in H. injection H as <- <- <-. split; [eauto|]. left.
    split; [reflexivity|]. split; [exact E|]. eauto.
Qed.

(** ** The rules after compilation *)

Lemma rules_kept_refl rs : rules_kept rs rs.
Proof. intros n r H. exists r. unfold same_rule. auto. Qed.
Lemma rules_kept_trans a b c : rules_kept a b -> rules_kept b c -> rules_kept a c.
Proof.
  intros H K n r E. destruct (H n r E) as (r1 & E1 & A1 & A2 & A3). destruct (K n r1 E1) as (r2 & E2 & B1 & B2 & B3). exists r2. split; [exact E2|].
  split; [congruence|]. split; congruence.
Qed.
Lemma rules_kept_new rs n r : dget rs n = None -> rules_kept rs (dset rs n r).
Proof.
  intros N m ru E. exists ru. split; [|repeat split]. rewrite dget_dset_neq; [exact E|]. intros ->. congruence.
Qed.
Lemma rules_kept_util rs n r u : dget rs n = Some r -> rules_kept rs (dset rs n (set_util r u)).
Proof.
  intros N m ru E. rewrite dget_dset. destruct (String.eqb n m) eqn:Eq.
  - apply String.eqb_eq in Eq. subst m. rewrite E in N. injection N as ->. eexists. split; [reflexivity|]. repeat split.
  - exists ru. split; [exact E|repeat split].
Qed.

Theorem compile_exact tie s n1 n2 vals n again rs : compile_rules tie s n1 n2 vals = Ok (Some (n, again, rs)) ->
  (exists k, n = compiled_name n1 n2 k) /\
  exists ru1 ru2 l r, dget (srules s) n1 = Some ru1 /\ dget (srules s) n2 = Some ru2 /\
    combine tie s n2 ru1 ru2 vals = Ok (Some (Ok l, Ok r)) /\
    ((again = false /\ dget (srules s) n = None /\ rs = dset (srules s) n (MkRule l r 0 None)) \/
     (again = true /\ exists old, dget (srules s) n = Some old /\ side_eqb (rlhs old) l = true /\ side_eqb (rrhs old) r = true /\
        rs = if qlearn (sp s) then dset (srules s) n (set_util old (round4 (rutil old + qalpha (sp s) * (rutil ru1 - rutil old)))) else srules s)).
Proof.
  unfold compile_rules. intros H. destruct (dget (srules s) n1) as [ru1|]; [|discriminate]. destruct (dget (srules s) n2) as [ru2|]; [|discriminate].
  destruct (combine tie s n2 ru1 ru2 vals) as [[[l r]|]|] eqn:C; try discriminate. cbn [rbind] in H.
  apply place_cases in H. destruct H as [K [(A & N & l' & r' & -> & -> & E)|(A & old & l' & r' & G & -> & -> & E1 & E2 & E)]]; (split; [exact K|]); exists ru1, ru2, l', r'; auto 12.
  split; [reflexivity|]. split; [reflexivity|]. split; [exact C|]. right. split; [exact A|]. exists old. auto.
Qed.
(** [combine] said yes: a rule is placed, unless computing its sides fails. *)
Theorem compile_places tie s n1 n2 vals ru1 ru2 l r : dget (srules s) n1 = Some ru1 -> dget (srules s) n2 = Some ru2 ->
  combine tie s n2 ru1 ru2 vals = Ok (Some (Ok l, Ok r)) -> exists n again rs, compile_rules tie s n1 n2 vals = Ok (Some (n, again, rs)).
Proof.
  intros E1 E2 C. unfold compile_rules. rewrite E1, E2, C. cbn [rbind].
  assert (G : forall fuel idx, (exists x, place (sp s) (srules s) n1 n2 (rutil ru1) (Ok l) (Ok r) idx fuel = Ok x)).
  { induction fuel as [|fuel IH]; intros idx; cbn [place]; [eauto|]. destruct (dget (srules s) (compiled_name n1 n2 idx)) as [old|]; cbn [rbind]; [|eauto].
    destruct (side_eqb (rlhs old) l); cbn [rbind]; [destruct (side_eqb (rrhs old) r); eauto|apply IH]. }
  destruct (G (S (List.length (srules s))) 0) as [[[[n again] rs]|] Ex]; [eauto|]. destruct (place_total _ _ _ _ _ _ _ Ex).
Qed.
Theorem compile_keeps tie s n1 n2 vals n again rs : compile_rules tie s n1 n2 vals = Ok (Some (n, again, rs)) -> rules_kept (srules s) rs.
Proof.
  intros H. apply compile_exact in H. destruct H as (_ & ru1 & ru2 & l & r & _ & _ & _ & [(_ & N & ->)|(_ & old & G & _ & _ & ->)]).
  - apply rules_kept_new. exact N.
  - destruct (qlearn (sp s)); [apply rules_kept_util; exact G|apply rules_kept_refl].
Qed.

(** *** In simulations *)

Lemma modify_keeps now reward alpha used : forall rules rules', modify_utilities now reward alpha used rules = Ok rules' -> rules_kept rules rules'.
Proof.
  unfold modify_utilities. induction used as [|[n ts] used IH]; intros rules rules' H; cbn [fold_left rbind fst snd] in H.
  - injection H as <-. apply rules_kept_refl.
  - assert (F : forall l e, fold_left (fun acc p => rs <- acc ;; match snd p with [] => Ok rs | ts => match dget rs (fst p) with None => Err EType
       | Some r => Ok (dset rs (fst p) (set_util r (fold_left (fun u t => learn alpha reward (now - t) u) ts (rutil r)))) end end) l (@Err (dict rule) e) = Err e)
      by (intro l; induction l as [|a0 l IHl]; intro e; cbn [fold_left rbind]; [reflexivity|apply IHl]).
    destruct ts as [|t ts]; [exact (IH _ _ H)|]. destruct (dget rules n) as [r|] eqn:E; [|rewrite F in H; discriminate].
    eapply rules_kept_trans; [|exact (IH _ _ H)]. apply rules_kept_util. exact E.
Qed.
Lemma learned_rules s ru t s' : learned s ru t = Ok s' -> rules_kept (srules s) (srules s') /\ sp s' = sp s /\ snames s' = snames s.
Proof.
  unfold learned. destruct (rreward ru) as [rew|]; [|intros [= <-]; split; [apply rules_kept_refl|auto]]. destruct (qlearn (sp s)); [|intros [= <-]; split; [apply rules_kept_refl|auto]].
  destruct (modify_utilities _ _ _ _ _) as [rs|] eqn:M; [|discriminate]. cbn. intros [= <-]. cbn. split; [exact (modify_keeps _ _ _ _ _ _ M)|auto].
Qed.

(** [R] is about the parameters, the buffer names and the rules, and covers learning and compiling. *)
Record about_rules (R : st -> st -> Prop) (O : oracle) : Prop := MkAboutRules {
  ar_trans : forall s1 s2 s3, R s1 s2 -> R s2 s3 -> R s1 s3;
  ar_same : forall s s', sp s' = sp s -> snames s' = snames s -> srules s' = srules s -> sorder s' = sorder s -> R s s';
  ar_learn : forall s ru t s', learned s ru t = Ok s' -> R s s';
  ar_compile : forall s n again rs, compile_now O s = Ok (Some (n, again, rs)) -> R s (set_order (sorder s ++ [n]) (set_rules rs s)) }.
Section About.
Variable R : st -> st -> Prop.
Variable O : oracle.
Hypothesis A : about_rules R O.
Let same s s' : sp s' = sp s -> snames s' = snames s -> srules s' = srules s -> sorder s' = sorder s -> R s s' := ar_same R O A s s'.
Lemma about_refl s : R s s. Proof. apply same; reflexivity. Qed.
Lemma about_rely s s' : rely s s' -> R s s'.
Proof. intros (R1 & R2 & _ & R4 & R5 & _). apply same; assumption. Qed.
Lemma keeps_free g : LearnFacts.keeps g -> free R g.
Proof.
  induction g as [|e|e g IH|g IH|x g IH|f g IH|k IH]; cbn [LearnFacts.keeps]; intros H.
  - apply free_ret.
  - apply free_raise.
  - apply free_yield. auto.
  - apply free_cont. auto.
  - apply free_note. auto.
  - apply free_act; [|apply IH; apply H]. intros s. apply about_rely. apply H.
  - apply free_get. intros s. apply IH. apply H.
Qed.
Lemma outside_free g : outside g -> free R g.
Proof.
  intros H. apply keeps_free. revert H. induction g as [|e|e g IH|g IH|x g IH|f g IH|k IH]; cbn [outside LearnFacts.keeps]; intros H; auto.
  - apply IH. apply H.
  - split; [apply H|apply IH; apply H].
Qed.
Lemma about_fire r ru t : free R (g_fire O r ru t).
Proof. apply free_act; [intros s; apply same; reflexivity|]. apply free_yield. apply keeps_free. exact (act_keeps O r ru t). Qed.
Lemma about_try r t : free R (g_try O r t).
Proof.
  intros s. cbn [g_try moves]. destruct (dget (srules s) r) as [ru|]; [|exact I].
  destruct (lhs_test s (rlhs ru) (svars s)) as [[b|]|]; [|intros s'; exact I|exact I].
  cbv zeta. assert (H1 : R s (set_vars b s)) by (apply same; reflexivity).
  destruct (learned (set_vars b s) ru t) as [s2|] eqn:L; [|exact I]. assert (H2 : R s s2) by (eapply (ar_trans R O A); [exact H1|exact (ar_learn R O A _ _ _ _ L)]).
  destruct (compile_now O s2) as [[[[n again] rs]|]|e] eqn:C; cbn [moves].
  - pose proof (ar_compile R O A _ _ _ _ C) as H3. split.
    + eapply (ar_trans R O A); [exact H2|]. eapply (ar_trans R O A); [exact H3|]. apply same; reflexivity.
    + intros s'. apply about_fire.
  - split; [|apply about_fire]. eapply (ar_trans R O A); [exact H2|]. apply same; reflexivity.
  - auto.
Qed.
Lemma about_procedural t : free R (procedural O t).
Proof.
  unfold procedural. apply free_act; [intros s; apply same; reflexivity|]. apply free_yield. apply free_act; [intros s; apply same; reflexivity|].
  apply free_get. intros s. destruct (select O s) as [[r|]|]; [| |apply free_raise].
  - apply free_act; [intros s'; apply same; reflexivity|]. apply free_yield. cbv zeta. apply free_yield. apply about_try.
  - apply free_act; [intros s'; apply same; reflexivity|]. destruct (remove_procedural _); [|apply free_raise].
    apply free_act; [intros s'; apply same; reflexivity|]. apply free_yield, free_ret.
Qed.
Lemma about_guided : guided R O outside.
Proof.
  split.
  - intros s s' H _ _ _ _. apply about_rely. exact H.
  - intros p. apply keeps_free. destruct p as [|n name m i c bs t|n name e i l t]; cbn [proc_gen]; [exact I|apply start_keeps|].
    destruct e; [apply autobuffer_keeps|apply autosearch_keeps].
  - apply about_procedural.
  - apply outside_free.
Qed.
Theorem sim_about t s env S1 S2 : (forall g, env = Some g -> outside g) -> sim_runs O (sim_init t s env) S1 -> sim_runs O S1 S2 -> R (ss S1) (ss S2).
Proof. apply (sim_guided R about_refl (ar_trans R O A) O outside t s env S1 S2 about_guided). Qed.
End About.

(** Whatever happens in a simulation, no rule disappears or changes anything but its utility. *)
Definition compiles_with (O : oracle) (tie : string -> string -> bool) : Prop :=
  forall s n1 n2 vals, ocompile O s n1 n2 vals = compile_rules tie s n1 n2 vals.
Lemma compile_now_inv O tie s x : compiles_with O tie -> compile_now O s = Ok (Some x) ->
  exists r1 r2 vals, scomp s = Some (r1, r2, vals) /\ compile_rules tie s r1 r2 vals = Ok (Some x).
Proof.
  intros C E. unfold compile_now in E. destruct (qcompile (sp s)); [|discriminate]. destruct (scomp s) as [[[r1 r2] vals]|]; [|discriminate]. rewrite C in E. eauto.
Qed.
Theorem sim_rules_kept O tie t s env S1 S2 : compiles_with O tie -> (forall g, env = Some g -> outside g) ->
  sim_runs O (sim_init t s env) S1 -> sim_runs O S1 S2 -> rules_kept (srules (ss S1)) (srules (ss S2)).
Proof.
  intros C. apply (sim_about (fun s s' => rules_kept (srules s) (srules s'))). split.
  - intros s1 s2 s3. apply rules_kept_trans.
  - intros s1 s2 _ _ E _. rewrite E. apply rules_kept_refl.
  - intros s1 ru t1 s2 L. apply (learned_rules _ _ _ _ L).
  - intros s1 n again rs E. destruct (compile_now_inv _ _ _ _ C E) as (r1 & r2 & vals & _ & K). exact (compile_keeps _ _ _ _ _ _ _ _ K).
Qed.

(** ** The order of conflict resolution *)

(** Exactly the rules take part in conflict resolution. *)
Definition all_ranked (s : st) : Prop := forall n, In n (sorder s) <-> In n (dkeys (srules s)).
Lemma modify_keys now reward alpha used : forall rules rules', modify_utilities now reward alpha used rules = Ok rules' -> forall n, In n (dkeys rules') <-> In n (dkeys rules).
Proof.
  unfold modify_utilities. induction used as [|[m ts] used IH]; intros rules rules' H n; cbn [fold_left rbind fst snd] in H.
  - injection H as <-. tauto.
  - assert (F : forall l e, fold_left (fun acc p => rs <- acc ;; match snd p with [] => Ok rs | ts => match dget rs (fst p) with None => Err EType
       | Some r => Ok (dset rs (fst p) (set_util r (fold_left (fun u t => learn alpha reward (now - t) u) ts (rutil r)))) end end) l (@Err (dict rule) e) = Err e)
      by (intro l; induction l as [|a0 l IHl]; intro e; cbn [fold_left rbind]; [reflexivity|apply IHl]).
    destruct ts as [|t ts]; [exact (IH _ _ H n)|]. destruct (dget rules m) as [r|] eqn:E; [|rewrite F in H; discriminate].
    rewrite (IH _ _ H n), dkeys_dset. unfold dmem. rewrite E. tauto.
Qed.
Lemma learned_order s ru t s' : learned s ru t = Ok s' -> sorder s' = sorder s /\ sp s' = sp s /\ forall n, In n (dkeys (srules s')) <-> In n (dkeys (srules s)).
Proof.
  unfold learned. destruct (rreward ru) as [rew|]; [|intros [= <-]; split; [reflexivity|split; [reflexivity|tauto]]]. destruct (qlearn (sp s)); [|intros [= <-]; split; [reflexivity|split; [reflexivity|tauto]]].
  destruct (modify_utilities _ _ _ _ _) as [rs|] eqn:M; [|discriminate]. cbn. intros [= <-]. cbn. split; [reflexivity|]. split; [reflexivity|]. exact (modify_keys _ _ _ _ _ _ M).
Qed.
Lemma compile_keys tie s n1 n2 vals n again rs : compile_rules tie s n1 n2 vals = Ok (Some (n, again, rs)) ->
  (forall m, In m (dkeys rs) <-> In m (dkeys (srules s)) \/ m = n) /\ (again = true <-> In n (dkeys (srules s))).
Proof.
  intros H. apply compile_exact in H. destruct H as (_ & ru1 & ru2 & l & r & _ & _ & _ & [(-> & N & ->)|(-> & old & G & _ & _ & ->)]).
  - pose proof N as N0. apply dget_None in N. split; [|split; [discriminate|tauto]]. intros m. rewrite dkeys_dset. unfold dmem. rewrite N0.
    rewrite in_app_iff. cbn. intuition congruence.
  - pose proof G as G0. apply dget_Some_key in G. split; [|tauto]. intros m. destruct (qlearn (sp s)).
    + rewrite dkeys_dset. unfold dmem. rewrite G0. intuition congruence.
    + intuition congruence.
Qed.
Theorem sim_ranked O tie t s env S : compiles_with O tie -> (forall g, env = Some g -> outside g) -> all_ranked s ->
  sim_runs O (sim_init t s env) S -> all_ranked (ss S).
Proof.
  intros C E H R. refine (sim_invariant all_ranked O outside t s env S _ E H R). apply about_guided. clear - C. split.
  - auto.
  - intros s1 s2 _ _ Er Eo K n. rewrite Er, Eo. apply K.
  - intros s1 ru t s2 L K n. destruct (learned_order _ _ _ _ L) as (A & _ & B). rewrite A, B. apply K.
  - intros s1 n again rs Ec K m. destruct (compile_now_inv _ _ _ _ C Ec) as (r1 & r2 & vals & _ & Ex). apply compile_keys in Ex. destruct Ex as [Ex _].
    cbn. rewrite in_app_iff, Ex, (K m). cbn. intuition.
Qed.
Theorem sim_order_kept O t s env S : qcompile (sp s) = false -> (forall g, env = Some g -> outside g) ->
  sim_runs O (sim_init t s env) S -> sorder (ss S) = sorder s.
Proof.
  intros Q E R. refine (proj2 (sim_invariant (fun s' => sp s' = sp s /\ sorder s' = sorder s) O outside t s env S _ E (conj eq_refl eq_refl) R)). apply about_guided. clear - Q. split.
  - auto.
  - intros s1 s2 A _ _ B [K1 K2]. rewrite A, B. auto.
  - intros s1 ru t s2 L [K1 K2]. destruct (learned_order _ _ _ _ L) as (A & B & _). rewrite A, B. auto.
  - intros s1 n again rs Ec [K1 K2]. unfold compile_now in Ec. rewrite K1, Q in Ec. discriminate.
Qed.

(** ** Conditions and actions of the compiled rule *)

Lemma combine_inv tie s n2 ru1 ru2 vals l r : combine tie s n2 ru1 ru2 vals = Ok (Some (Ok l, Ok r)) ->
  unsafe s (rrhs ru1) (rlhs ru2) (rrhs ru2) = false /\
  exists retr vs lhs2 vals1 mv vals2 l1 r1 l2 r2 r2',
    scan_vals s vals None [] = Ok (Some (retr, vs)) /\
    with_parts (rename_part n2 vs) (rlhs ru2) = Ok lhs2 /\ with_parts (rename_part n2 vs) (rrhs ru2) = Ok r2' /\
    match_sides tie lhs2 vals vals ([], []) = Ok (vals1, mv) /\ subst_vals (fst mv) (snd mv) vals1 = Ok vals2 /\
    with_parts (subst_part (fst mv) (snd mv)) (rlhs ru1) = Ok l1 /\ with_parts (subst_part (fst mv) (snd mv)) (rrhs ru1) = Ok r1 /\
    with_parts (subst_part (fst mv) (snd mv)) lhs2 = Ok l2 /\ with_parts (subst_part (fst mv) (snd mv)) r2' = Ok r2 /\
    collapse_lhs vals2 retr (Ok l1) (Ok r1) (Ok l2) = Ok l /\ collapse_rhs vals2 retr (Ok r1) (Ok r2) = Ok r.
Proof.
  unfold combine. destruct (unsafe _ _ _ _); [discriminate|]. intros H. split; [reflexivity|].
  apply rbind_Ok in H. destruct H as ([[retr vs]|] & Hs & H); [|discriminate].
  apply rbind_Ok in H. destruct H as (lhs2 & Hl2 & H). apply rbind_Ok in H. destruct H as ([vals1 mv] & Hm & H).
  apply rbind_Ok in H. destruct H as (vals2 & Hv & H). cbv zeta in H. injection H as HL HR.
  unfold collapse_rhs in HR. destruct (with_parts (subst_part (fst mv) (snd mv)) (rrhs ru1)) as [r1|] eqn:E2; [|discriminate].
  destruct (with_parts (rename_part n2 vs) (rrhs ru2)) as [r2'|] eqn:E3; [|discriminate]. cbn [rbind] in HR.
  destruct (with_parts (subst_part (fst mv) (snd mv)) r2') as [r2|] eqn:E4; [|discriminate].
  unfold collapse_lhs in HL. destruct (with_parts (subst_part (fst mv) (snd mv)) (rlhs ru1)) as [l1|] eqn:E5; [|discriminate]. cbn [rbind] in HL.
  destruct (with_parts (subst_part (fst mv) (snd mv)) lhs2) as [l2|] eqn:E6; [|discriminate].
  exists retr, vs, lhs2, vals1, mv, vals2, l1, r1, l2, r2, r2'. split; [exact Hs|]. split; [exact Hl2|]. split; [exact E3|]. split; [exact Hm|]. split; [exact Hv|].
  split; [exact E5|]. split; [exact E2|]. split; [exact E6|]. split; [exact E4|]. split; [exact HL|exact HR].
Qed.
Lemma rmap_keys {A} (f : string * A -> res (string * A)) l l' : (forall p q, f p = Ok q -> fst q = fst p) -> rmap f l = Ok l' -> dkeys l' = dkeys l.
Proof.
  intros K H. apply rmap_Forall2 in H. induction H as [|p q l l' E F IH]; [reflexivity|]. cbn. f_equal; [exact (K _ _ E)|exact IH].
Qed.
Lemma merge_action_key vals p q : merge_action vals p = Ok q -> fst q = fst p.
Proof.
  unfold merge_action. destruct p as [[|code buff] c]; cbn [fst snd]; [discriminate|]. destruct (rhs_meth code) as [m|]; [|discriminate].
  assert (G : forall x, match dget vals buff with None => Ok (String code buff, c) | Some i => ch <- chunk_in c ;; Ok (String code buff, CChunk (x i ch)) end = Ok q -> fst q = String code buff).
  { intros x. destruct (dget vals buff); [|intros [= <-]; reflexivity]. destruct (chunk_in c); [|discriminate]. cbn. intros [= <-]. reflexivity. }
  destruct m; try (intros [= <-]; reflexivity); apply G.
Qed.

(** *** Actions *)

Lemma dset_keys_keep {A} (d : dict A) k a x : In x (dkeys d) -> In x (dkeys (dset d k a)).
Proof. intros H. rewrite dkeys_dset. destruct (dmem d k); [exact H|]. apply in_or_app. auto. Qed.
Lemma dset_key_in {A} (d : dict A) k a : In k (dkeys (dset d k a)).
Proof. apply (dget_Some_key _ _ (dget_dset_eq d k a)). Qed.
Lemma dset_keys_inv {A} (d : dict A) k a x : In x (dkeys (dset d k a)) -> In x (dkeys d) \/ x = k.
Proof. rewrite dkeys_dset. destruct (dmem d k); [auto|]. rewrite in_app_iff. cbn. intuition. Qed.
Lemma same_buffer_spec b key : same_buffer b key = true <-> match key with String _ c => c | "" => "" end = b.
Proof. unfold same_buffer. destruct key; rewrite String.eqb_eq; split; congruence. Qed.
Lemma keep_actions_keep retr r1 : forall acc r k, keep_actions retr r1 acc = Ok r -> In k (dkeys acc) -> In k (dkeys r).
Proof.
  induction r1 as [|[key c] r1 IH]; intros acc r k; cbn [keep_actions]; [intros [= <-]; auto|]. intros H I. destruct key as [|code b]; [discriminate|].
  destruct (existsb _ _); [eauto|]. destruct (is_buffer _ _); [eauto|]. destruct (rhs_meth code) as [m|]; [|discriminate].
  destruct m; try (eapply IH; [exact H|apply dset_keys_keep; exact I]); (destruct (chunk_in c); [|discriminate]); cbn [rbind] in H; (eapply IH; [exact H|apply dset_keys_keep; exact I]).
Qed.
Lemma keep_actions_inv retr r1 : forall acc r k, keep_actions retr r1 acc = Ok r -> In k (dkeys r) -> In k (dkeys acc) \/
  (In k (dkeys r1) /\ forall b, retr = Some b -> match k with String _ c => c | "" => "" end <> b).
Proof.
  induction r1 as [|[key c] r1 IH]; intros acc r k; cbn [keep_actions]; [intros [= <-]; auto|]. intros H I. destruct key as [|code b]; [discriminate|].
  assert (G : forall acc', keep_actions retr r1 acc' = Ok r -> (In k (dkeys acc') -> In k (dkeys acc) \/ (k = String code b /\ is_buffer retr b = false)) ->
    In k (dkeys acc) \/ (In k (dkeys ((String code b, c) :: r1)) /\ forall b, retr = Some b -> match k with String _ c => c | "" => "" end <> b)).
  { intros acc' H' K. destruct (IH _ _ _ H' I) as [J|[J1 J2]]; [|right; split; [right; exact J1|exact J2]]. destruct (K J) as [J'|[-> B]]; [auto|]. right. split; [left; reflexivity|].
    intros b' ->. unfold is_buffer in B. apply String.eqb_neq in B. exact B. }
  destruct (existsb _ _); [apply (G acc); auto|]. destruct (is_buffer retr b) eqn:B; [apply (G acc); auto|]. destruct (rhs_meth code) as [m|]; [|discriminate].
  assert (K : forall x, In k (dkeys (dset acc (String code b) x)) -> In k (dkeys acc) \/ (k = String code b /\ false = false)).
  { intros x J. destruct (dset_keys_inv _ _ _ _ J); auto. }
  destruct m; try (apply (G _ H); apply K); (destruct (chunk_in c); [|discriminate]); cbn [rbind] in H; (apply (G _ H); apply K).
Qed.
(** Every buffer that the first rule acts on, other than the retrieval, is acted on. *)
Lemma keep_actions_buffers retr r1 : forall acc r code b, keep_actions retr r1 acc = Ok r -> ~ In "" (dkeys acc) -> In (String code b) (dkeys r1) ->
  is_buffer retr b = false -> acts_upon r b.
Proof.
  induction r1 as [|[key c] r1 IH]; intros acc r code b; cbn [keep_actions]; [intros _ _ []|]. intros H N I B. destruct key as [|code0 b0]; [discriminate|].
  assert (N' : forall x, ~ In "" (dkeys (dset acc (String code0 b0) x))) by (intros x J; destruct (dset_keys_inv _ _ _ _ J); [auto|discriminate]).
  destruct I as [I|I].
  - cbn in I. injection I as -> ->. destruct (existsb (same_buffer b) (dkeys acc)) eqn:X.
    + apply existsb_exists in X. destruct X as (k & Ik & Sk). apply same_buffer_spec in Sk. pose proof (keep_actions_keep _ _ _ _ _ H Ik) as J. destruct k as [|co bo]; [destruct (N Ik)|].
      subst bo. exists co. exact J.
    + rewrite B in H. destruct (rhs_meth code) as [m|]; [|discriminate]. exists code.
      destruct m; try (eapply keep_actions_keep; [exact H|apply dset_key_in]); (destruct (chunk_in c); [|discriminate]); cbn [rbind] in H; (eapply keep_actions_keep; [exact H|apply dset_key_in]).
  - destruct (existsb _ _); [eauto|]. destruct (is_buffer _ b0); [eauto|]. destruct (rhs_meth code0) as [m|]; [|discriminate].
    destruct m; try (eapply IH; [exact H|apply N'|exact I|exact B]); (destruct (chunk_in c); [|discriminate]); cbn [rbind] in H; (eapply IH; [exact H|apply N'|exact I|exact B]).
Qed.
(** If the first rule has one action per buffer, and there is no action on the buffer yet, that action is kept. *)
Lemma keep_actions_one retr r1 : forall acc r code b, keep_actions retr r1 acc = Ok r -> ~ acts_upon acc b -> one_each r1 -> ~ In "" (dkeys acc) ->
  In (String code b) (dkeys r1) -> is_buffer retr b = false -> In (String code b) (dkeys r).
Proof.
  induction r1 as [|[key c] r1 IH]; intros acc r code b; cbn [keep_actions]; [intros _ _ _ _ []|]. intros H A O1 N I B. destruct key as [|code0 b0]; [discriminate|].
  unfold one_each in O1. cbn in O1. inversion O1 as [|? ? O2 O3]; subst.
  destruct I as [I|I].
  - cbn in I. injection I as -> ->. destruct (existsb (same_buffer b) (dkeys acc)) eqn:X.
    + apply existsb_exists in X. destruct X as (k & Ik & Sk). apply same_buffer_spec in Sk. destruct k as [|co bo]; [destruct (N Ik)|]. subst bo. destruct A. exists co. exact Ik.
    + rewrite B in H. destruct (rhs_meth code) as [m|]; [|discriminate].
      destruct m; try (eapply keep_actions_keep; [exact H|apply dset_key_in]); (destruct (chunk_in c); [|discriminate]); cbn [rbind] in H; (eapply keep_actions_keep; [exact H|apply dset_key_in]).
  - assert (Ne : b0 <> b). { intros ->. apply O2. apply in_map_iff. exists (String code b). auto. }
    assert (N' : forall x, ~ In "" (dkeys (dset acc (String code0 b0) x))) by (intros x J; destruct (dset_keys_inv _ _ _ _ J); [auto|discriminate]).
    assert (A' : forall x, ~ acts_upon (dset acc (String code0 b0) x) b). { intros x [co J]. destruct (dset_keys_inv _ _ _ _ J) as [J'|J']; [apply A; exists co; exact J'|congruence]. }
    destruct (existsb _ _); [eauto|]. destruct (is_buffer _ b0); [eauto|]. destruct (rhs_meth code0) as [m|]; [|discriminate].
    destruct m; try (eapply IH; [exact H|apply A'|exact O3|apply N'|exact I|exact B]); (destruct (chunk_in c); [|discriminate]); cbn [rbind] in H; (eapply IH; [exact H|apply A'|exact O3|apply N'|exact I|exact B]).
Qed.
Lemma no_empty_key f side side' : with_parts f side = Ok side' -> ~ In "" (dkeys side').
Proof.
  intros H I. rewrite (with_parts_keys _ _ _ H) in I. apply with_parts_spec in H. apply in_map_iff in I. destruct I as (p & E & I).
  destruct (Forall2_In_l _ _ _ _ H I) as (q & _ & _ & code & buff & E' & _). congruence.
Qed.

Lemma scan_retrieval s vals : forall retr vs retr' vs', scan_vals s vals retr vs = Ok (Some (retr', vs')) ->
  (forall b, retr' = Some b -> retr = Some b \/ exists d got, In (b, SRet d got) vals) /\
  (forall b d got, In (b, SRet d got) vals -> retr' <> None).
Proof.
  induction vals as [|[b i] vals IH]; intros retr vs retr' vs'; cbn [scan_vals]; [intros [= <- <-]; split; [auto|intros ? ? ? []]|].
  destruct i as [|d|d got]; intros H.
  - destruct (IH _ _ _ _ H) as [A B]. split; [|intros b' d' g' [E|J]; [discriminate|eauto]]. intros b' E. destruct (A b' E) as [J|(d & got & J)]; eauto 6 using in_cons.
  - destruct (IH _ _ _ _ H) as [A B]. split; [|intros b' d' g' [E|J]; [discriminate|eauto]]. intros b' E. destruct (A b' E) as [J|(d' & got & J)]; eauto 6 using in_cons.
  - apply rbind_Ok in H. destruct H as (f & _ & H). destruct f; [discriminate|]. destruct (IH _ _ _ _ H) as [A B]. split.
    + intros b' E. right. destruct (A b' E) as [J|(d' & got' & J)]; [injection J as ->; eauto using in_eq|eauto using in_cons].
    + intros b' d' g' [E|J]; [|eauto]. injection E as -> -> ->. intros ->. clear - H.
      assert (G : forall vals x vs vs', scan_vals s vals (Some x) vs <> Ok (Some (None, vs'))).
      { clear. induction vals as [|[b i] vals IH]; intros x vs vs'; cbn [scan_vals]; [discriminate|]. destruct i; try apply IH.
        destruct (buffer_full s b) as [[]|]; cbn [rbind]; try discriminate. apply IH. }
      exact (G _ _ _ _ H).
Qed.

(** No action of the second rule is lost; no buffer that the first rule acts on is forgotten, except a retrieval. *)
Theorem combine_actions tie s n2 ru1 ru2 vals l r : combine tie s n2 ru1 ru2 vals = Ok (Some (Ok l, Ok r)) ->
  (forall k, In k (dkeys (rrhs ru2)) -> In k (dkeys r)) /\
  (forall k, In k (dkeys r) -> In k (dkeys (rrhs ru2)) \/ In k (dkeys (rrhs ru1))) /\
  (forall b, acts_upon (rrhs ru1) b -> acts_upon r b \/ exists d got, In (b, SRet d got) vals) /\
  (one_each (rrhs ru1) -> forall code b, In (String code b) (dkeys (rrhs ru1)) -> ~ acts_upon (rrhs ru2) b ->
     In (String code b) (dkeys r) \/ exists d got, In (b, SRet d got) vals).
Proof.
  intros H. apply combine_inv in H. destruct H as (_ & retr & vs & lhs2 & vals1 & mv & vals2 & l1 & r1 & l2 & r2 & r2' & Hs & H2 & H3 & _ & _ & _ & H4 & _ & H5 & _ & HR).
  unfold collapse_rhs in HR. cbn [rbind] in HR. apply rbind_Ok in HR. destruct HR as (acc & Ha & HR).
  assert (Ka : dkeys acc = dkeys (rrhs ru2)).
  { rewrite (rmap_keys _ _ _ (merge_action_key vals2) Ha), (with_parts_keys _ _ _ H5). exact (with_parts_keys _ _ _ H3). }
  assert (K1 : dkeys r1 = dkeys (rrhs ru1)) by exact (with_parts_keys _ _ _ H4).
  assert (Na : ~ In "" (dkeys acc)) by (rewrite Ka, <- (with_parts_keys _ _ _ H3); exact (no_empty_key _ _ _ H3)).
  assert (Z : forall b, is_buffer retr b = false \/ exists d got, In (b, SRet d got) vals).
  { intros b. destruct (is_buffer retr b) eqn:B; [|auto]. right. unfold is_buffer in B. destruct retr as [b'|]; [|discriminate]. apply String.eqb_eq in B. subst b'.
    destruct (proj1 (scan_retrieval _ _ _ _ _ _ Hs) b eq_refl) as [J|J]; [discriminate|exact J]. }
  split; [intros k I; eapply keep_actions_keep; [exact HR|rewrite Ka; exact I]|].
  split; [intros k I; destruct (keep_actions_inv _ _ _ _ _ HR I) as [J|[J _]]; [left; rewrite <- Ka; exact J|right; rewrite <- K1; exact J]|].
  split.
  - intros b [code I]. rewrite <- K1 in I. destruct (Z b) as [B|B]; [|auto]. left. exact (keep_actions_buffers _ _ _ _ _ _ HR Na I B).
  - intros O1 code b I A. destruct (Z b) as [B|B]; [|auto]. left. apply (keep_actions_one _ _ _ _ _ _ HR); [|unfold one_each; rewrite K1; exact O1|exact Na|rewrite K1; exact I|exact B].
    intros [co J]. apply A. exists co. rewrite <- Ka. exact J.
Qed.

(** *** Conditions *)

Lemma collapse_tests_keys vals retr l1 : forall l2 o1 o2, collapse_tests vals retr l1 l2 = Ok (o1, o2) ->
  dkeys o1 = dkeys l1 /\ (forall p, In p o2 -> In p l2) /\ (forall p, In p l2 -> In p o2 \/ In (fst p) (dkeys l1)).
Proof.
  induction l1 as [|[key c] l1 IH]; intros l2 o1 o2; cbn [collapse_tests]; [intros [= <- <-]; auto|]. destruct key as [|code b]; [discriminate|].
  assert (G : forall l2' n, (forall p, In p l2' -> In p l2) -> (forall p, In p l2 -> In p l2' \/ fst p = String code b) ->
    (x <- collapse_tests vals retr l1 l2' ;; let '(a, z) := x in Ok ((String code b, n) :: a, z)) = Ok (o1, o2) ->
    dkeys o1 = dkeys ((String code b, c) :: l1) /\ (forall p, In p o2 -> In p l2) /\ (forall p, In p l2 -> In p o2 \/ In (fst p) (dkeys ((String code b, c) :: l1)))).
  { intros l2' n A B H. apply rbind_Ok in H. destruct H as ([a z] & H & E). injection E as <- <-. destruct (IH _ _ _ H) as (I1 & I2 & I3). split; [cbn; f_equal; exact I1|].
    split; [auto|]. intros p J. destruct (B p J) as [K|K]; [|right; left; symmetry; exact K]. destruct (I3 p K); [auto|right; right; assumption]. }
  destruct (Ascii.eqb code "?"); [apply (G l2); auto|]. destruct (Ascii.eqb code "="); [|discriminate].
  destruct (dget l2 (String code b)) as [c2|]; [|apply (G l2); auto]. intros H. apply rbind_Ok in H. destruct H as (ch2 & _ & H). apply rbind_Ok in H. destruct H as (ch1 & _ & H).
  apply rbind_Ok in H. destruct H as (n & _ & H). revert H. apply (G (ddel l2 (String code b))).
  - intros p J. apply filter_In in J. apply J.
  - intros p J. destruct (String.eqb (fst p) (String code b)) eqn:E; [right; apply String.eqb_eq; exact E|]. left. apply filter_In. rewrite E. auto.
Qed.
Lemma collapse_rest_keys vals retr rhs1 l2 : forall l1 l, collapse_rest vals retr rhs1 l2 l1 = Ok l ->
  (forall k, In k (dkeys l1) -> In k (dkeys l)) /\
  (forall k, In k (dkeys l) -> In k (dkeys l1) \/ (In k (dkeys l2) /\ forall b, k = String "=" b -> dmem vals b || negb (is_buffer retr b) = true)) /\
  (forall b, In (String "=" b) (dkeys l2) -> In (String "=" b) (dkeys l) \/ is_buffer retr b = true).
Proof.
  induction l2 as [|[key c] l2 IH]; intros l1 l; cbn [collapse_rest]; [intros [= <-]; auto|]. destruct key as [|code b]; [discriminate|].
  assert (G : forall l1', (forall k, In k (dkeys l1) -> In k (dkeys l1')) ->
     (forall k, In k (dkeys l1') -> In k (dkeys l1) \/ (k = String code b /\ (code = "="%char -> dmem vals b || negb (is_buffer retr b) = true))) ->
     (code = "="%char -> In (String code b) (dkeys l1') \/ is_buffer retr b = true) ->
     collapse_rest vals retr rhs1 l2 l1' = Ok l ->
     (forall k, In k (dkeys l1) -> In k (dkeys l)) /\
     (forall k, In k (dkeys l) -> In k (dkeys l1) \/ (In k (dkeys ((String code b, c) :: l2)) /\ forall b, k = String "=" b -> dmem vals b || negb (is_buffer retr b) = true)) /\
     (forall b', In (String "=" b') (dkeys ((String code b, c) :: l2)) -> In (String "=" b') (dkeys l) \/ is_buffer retr b' = true)).
  { intros l1' A B D H. destruct (IH _ _ H) as (I1 & I2 & I3). split; [auto|]. split.
    - intros k J. destruct (I2 k J) as [K|[K1 K2]]; [|right; split; [right; exact K1|exact K2]]. destruct (B k K) as [K'|[-> K']]; [auto|]. right. split; [left; reflexivity|].
      intros b' E. injection E as -> ->. auto.
    - intros b' [E|J]; [|auto]. cbn in E. injection E as -> ->. destruct (D eq_refl); auto. }
  destruct (Ascii.eqb code "?") eqn:Q.
  - apply Ascii.eqb_eq in Q. subst code. intros H. apply rbind_Ok in H. destruct H as (r1 & _ & H). apply rbind_Ok in H. destruct H as (a & _ & H). destruct a; [revert H; apply (G l1); auto; discriminate|].
    assert (K : forall x, collapse_rest vals retr rhs1 l2 (dset l1 (String "?" b) x) = Ok l -> _) by (intros x; apply G;
      [intros k; apply dset_keys_keep|intros k J; destruct (dset_keys_inv _ _ _ _ J) as [J'|J']; [auto|right; split; [exact J'|discriminate]]|discriminate]).
    destruct c as [| d | |]; try discriminate; [|destruct (dget l1 _); discriminate..].
    destruct (dget l1 (String "?" b)) as [[| d1 | |]|]; try discriminate; exact (K _ H).
  - destruct (Ascii.eqb code "=") eqn:Eq; [|discriminate]. apply Ascii.eqb_eq in Eq. subst code. intros H. apply rbind_Ok in H. destruct H as (ch2 & _ & H).
    destruct (dmem vals b || negb (is_buffer retr b)) eqn:D.
    + revert H. apply G; [intros k; apply dset_keys_keep| |intros _; left; apply dset_key_in].
      intros k J. destruct (dset_keys_inv _ _ _ _ J) as [J'|J']; [auto|]. right. auto.
    + revert H. apply (G l1); auto. intros _. right. apply Bool.orb_false_iff in D. destruct D as [_ D]. apply Bool.negb_false_iff in D. exact D.
Qed.
(** The values left for collapsing: a retrieval that the second rule tests is gone. *)
Lemma match_sides_vals tie lhs2 : forall temp vals mv vals1 mv1, match_sides tie lhs2 temp vals mv = Ok (vals1, mv1) ->
  (forall b i, dget vals1 b = Some i -> dget vals b = Some i) /\
  (forall b d got, dget temp b = Some (SRet d got) -> In (String "=" b) (dkeys lhs2) -> dget vals1 b = None).
Proof.
  induction lhs2 as [|[key c] lhs2 IH]; intros temp vals mv vals1 mv1; cbn [match_sides]; [intros [= <- <-]; split; [auto|intros ? ? ? _ []]|].
  destruct key as [|code b]; [discriminate|]. destruct (carries code) eqn:C.
  - intros H. apply rbind_Ok in H. destruct H as (ch & _ & H).
    assert (G : forall vals' mv', (forall b i, dget vals' b = Some i -> dget vals b = Some i) -> (forall d got, dget temp b = Some (SRet d got) -> dget vals' b = None) ->
      match_sides tie lhs2 (ddel temp b) vals' mv' = Ok (vals1, mv1) ->
      (forall b i, dget vals1 b = Some i -> dget vals b = Some i) /\
      (forall b' d got, dget temp b' = Some (SRet d got) -> In (String "=" b') (dkeys ((String code b, c) :: lhs2)) -> dget vals1 b' = None)).
    { intros vals' mv' A B H'. destruct (IH _ _ _ _ _ H') as [I1 I2]. split; [auto|]. intros b' d got E J.
      destruct (String.eqb b b') eqn:Eb.
      - apply String.eqb_eq in Eb. subst b'. destruct (dget vals1 b) as [i|] eqn:Ei; [|reflexivity]. pose proof (I1 _ _ Ei) as X. rewrite (B _ _ E) in X. discriminate.
      - destruct J as [J|J]; [cbn in J; injection J as -> ->; rewrite String.eqb_refl in Eb; discriminate|]. apply (I2 b' d got); [|exact J].
        rewrite dget_ddel. rewrite String.eqb_sym, Eb || rewrite Eb. exact E. }
    destruct (dget temp b) as [[| d3 | d3 got]|] eqn:E.
    + apply rbind_Ok in H. destruct H as (mv' & _ & H). revert H. apply G; [auto|discriminate].
    + apply rbind_Ok in H. destruct H as (mv' & _ & H). revert H. apply G; [auto|discriminate].
    + revert H. apply G; [|intros; rewrite dget_ddel, String.eqb_refl; reflexivity]. intros b' i. rewrite dget_ddel. destruct (String.eqb _ _); [discriminate|auto].
    + apply rbind_Ok in H. destruct H as (mv' & _ & H). revert H. apply G; [auto|discriminate].
  - intros H. destruct (IH _ _ _ _ _ H) as [I1 I2]. split; [exact I1|]. intros b' d got E [J|J]; [|eauto]. cbn in J. injection J as -> ->. discriminate.
Qed.
Lemma subst_vals_keys m v vals vals' : subst_vals m v vals = Ok vals' -> dkeys vals' = dkeys vals.
Proof.
  apply rmap_keys. intros [b i] q. cbn [fst snd]. destruct i; [intros [= <-]; reflexivity| |discriminate]. destruct (rmap _ _); [|discriminate]. cbn. intros [= <-]. reflexivity.
Qed.
Lemma dmem_keys {A B} (d : dict A) (e : dict B) k : dkeys d = dkeys e -> dmem d k = dmem e k.
Proof.
  intros H. unfold dmem. destruct (dget d k) as [a|] eqn:E1, (dget e k) as [b|] eqn:E2; try reflexivity.
  - apply dget_Some_key in E1. apply dget_None in E2. rewrite H in E1. contradiction.
  - apply dget_Some_key in E2. apply dget_None in E1. rewrite <- H in E2. contradiction.
Qed.
Theorem combine_conditions tie s n2 ru1 ru2 vals l r : combine tie s n2 ru1 ru2 vals = Ok (Some (Ok l, Ok r)) ->
  (forall k, In k (dkeys (rlhs ru1)) -> In k (dkeys l)) /\
  (forall k, In k (dkeys l) -> In k (dkeys (rlhs ru1)) \/ In k (dkeys (rlhs ru2))) /\
  (forall b, In (String "=" b) (dkeys (rlhs ru2)) -> In (String "=" b) (dkeys l) \/ exists d got, In (b, SRet d got) vals).
Proof.
  intros H. apply combine_inv in H. destruct H as (_ & retr & vs & lhs2 & vals1 & mv & vals2 & l1 & r1 & l2 & r2 & r2' & Hs & H2 & _ & _ & _ & H3 & _ & H4 & _ & HL & _).
  unfold collapse_lhs in HL. cbn [rbind] in HL. apply rbind_Ok in HL. destruct HL as ([o1 o2] & Ht & HL).
  assert (K1 : dkeys l1 = dkeys (rlhs ru1)) by exact (with_parts_keys _ _ _ H3).
  assert (K2 : dkeys l2 = dkeys (rlhs ru2)) by (rewrite (with_parts_keys _ _ _ H4); exact (with_parts_keys _ _ _ H2)).
  destruct (collapse_tests_keys _ _ _ _ _ _ Ht) as (T1 & T2 & T3). destruct (collapse_rest_keys _ _ _ _ _ _ HL) as (R1 & R2 & R3).
  split; [intros k I; apply R1; rewrite T1, K1; exact I|]. split.
  - intros k I. destruct (R2 k I) as [J|[J _]]; [left; rewrite <- K1, <- T1; exact J|]. right. rewrite <- K2. apply in_map_iff in J. destruct J as (p & <- & J). apply in_map. auto.
  - intros b I. rewrite <- K2 in I. apply in_map_iff in I. destruct I as (p & E & I). destruct (T3 p I) as [J|J].
    + destruct (R3 b) as [X|X]; [apply in_map_iff; exists p; auto|auto|]. right. unfold is_buffer in X. destruct retr as [b'|]; [|discriminate]. apply String.eqb_eq in X. subst b'.
      destruct (proj1 (scan_retrieval _ _ _ _ _ _ Hs) b eq_refl) as [Y|Y]; [discriminate|exact Y].
    + left. apply R1. rewrite T1, <- E. exact J.
Qed.
(** The retrieval disappears: it is neither tested nor requested any more. *)
Theorem combine_retrieval tie s n2 ru1 ru2 vals l r b d got : combine tie s n2 ru1 ru2 vals = Ok (Some (Ok l, Ok r)) ->
  dget vals b = Some (SRet d got) -> (forall b' d' got', In (b', SRet d' got') vals -> b' = b) ->
  In (String "=" b) (dkeys (rlhs ru2)) ->
  (In (String "=" b) (dkeys l) -> In (String "=" b) (dkeys (rlhs ru1))) /\
  (forall code, In (String code b) (dkeys r) -> In (String code b) (dkeys (rrhs ru2))).
Proof.
  intros H V U I. apply combine_inv in H. destruct H as (_ & retr & vs & lhs2 & vals1 & mv & vals2 & l1 & r1 & l2 & r2 & r2' & Hs & H2 & H2' & Hm & Hv & H3 & H5 & H4 & H6 & HL & HR).
  assert (R : retr = Some b).
  { destruct (scan_retrieval _ _ _ _ _ _ Hs) as [A B]. destruct retr as [b'|]; [|destruct (B b d got (dget_In _ _ V) eq_refl)].
    destruct (A b' eq_refl) as [J|(d' & got' & J)]; [discriminate|]. rewrite (U _ _ _ J). reflexivity. }
  subst retr.
  assert (M : dmem vals2 b = false).
  { rewrite (dmem_keys _ _ b (subst_vals_keys _ _ _ _ Hv)). unfold dmem. rewrite (proj2 (match_sides_vals _ _ _ _ _ _ _ Hm) b d got V); [reflexivity|].
    rewrite (with_parts_keys _ _ _ H2). exact I. }
  assert (K1 : dkeys l1 = dkeys (rlhs ru1)) by exact (with_parts_keys _ _ _ H3).
  split.
  - intros J. unfold collapse_lhs in HL. cbn [rbind] in HL. apply rbind_Ok in HL. destruct HL as ([o1 o2] & Ht & HL).
    destruct (collapse_tests_keys _ _ _ _ _ _ Ht) as (T1 & _). destruct (collapse_rest_keys _ _ _ _ _ _ HL) as (_ & R2 & _).
    destruct (R2 _ J) as [X|[_ X]]; [rewrite <- K1, <- T1; exact X|]. specialize (X b eq_refl). rewrite M in X. cbn in X. rewrite String.eqb_refl in X. discriminate.
  - intros code J. unfold collapse_rhs in HR. cbn [rbind] in HR. apply rbind_Ok in HR. destruct HR as (acc & Ha & HR).
    destruct (keep_actions_inv _ _ _ _ _ HR J) as [X|[_ X]]; [|destruct (X b eq_refl eq_refl)].
    rewrite (rmap_keys _ _ _ (merge_action_key vals2) Ha), (with_parts_keys _ _ _ H6), (with_parts_keys _ _ _ H2') in X. exact X.
Qed.

(** ** Pairs that are not compiled *)

Lemma kind_of_spec s b k : kind_is s b k -> kind_of s b = Some k.
Proof. intros (i & bf & E1 & E2 & E3). unfold kind_of, buf_at. rewrite E1, E2. cbn. congruence. Qed.
Lemma requests_spec side b : requests side b = true <-> requests_from side b.
Proof. unfold requests. rewrite existsb_exists. split; [intros (k & I & E); apply String.eqb_eq in E; cbn in E; subst k; exact I|intros I; exists (String "+" b); split; [exact I|apply String.eqb_eq; reflexivity]]. Qed.
Lemma tests_spec side b : tests side b = true <-> In (String "=" b) (dkeys side).
Proof. unfold tests. rewrite existsb_exists. split; [intros (k & I & E); apply String.eqb_eq in E; cbn in E; subst k; exact I|intros I; exists (String "=" b); split; [exact I|apply String.eqb_eq; reflexivity]]. Qed.
Lemma queries_false side b p d : queries side b p = false -> asks side b d -> p (CDict d) = false.
Proof.
  unfold queries, asks. intros H I. destruct (p (CDict d)) eqn:E; [|reflexivity]. assert (X : existsb (fun q => (String.eqb ("?" ++ b) (fst q) && p (snd q))%bool) side = true); [|congruence].
  apply existsb_exists. exists (String "?" b, CDict d). split; [exact I|]. cbn. rewrite String.eqb_refl, E. reflexivity.
Qed.
Lemma dict_eqb_single d a v : dict_eqb d [(a, v)] = true <-> d = [(a, v)].
Proof.
  unfold dict_eqb. split.
  - intros H. apply Bool.andb_true_iff in H. destruct H as [H1 H2]. apply Nat.eqb_eq in H1. destruct d as [|[a' v'] [|q d]]; try discriminate. cbn in H2.
    destruct (String.eqb a a') eqn:E; [|rewrite ?E in H2; destruct (String.eqb a' a) eqn:E'; [apply String.eqb_eq in E'; subst; rewrite String.eqb_refl in E; discriminate|discriminate]].
    apply String.eqb_eq in E. subst a'. rewrite ?String.eqb_refl in H2. rewrite Bool.andb_true_r in H2. apply String.eqb_eq in H2. congruence.
  - intros ->. cbn. rewrite String.eqb_refl. cbn. rewrite String.eqb_refl. reflexivity.
Qed.
Theorem unsafe_pairs tie s n2 ru1 ru2 vals x b : combine tie s n2 ru1 ru2 vals = Ok (Some x) -> requests_from (rrhs ru1) b ->
  (kind_of s b <> Some KRetrieval -> ~ requests_from (rrhs ru2) b) /\
  (forall k, kind_is s b k -> perceptual k -> ~ In (String "=" b) (dkeys (rlhs ru2))) /\
  (forall k d, kind_is s b k -> perceptual k \/ k = KMotor -> asks (rlhs ru2) b d -> d = [("state", "busy")]) /\
  (kind_is s b KRetrieval -> ~ asks (rlhs ru2) b [("state", "error")]).
Proof.
  intros H I. unfold combine in H. destruct (unsafe s (rrhs ru1) (rlhs ru2) (rrhs ru2)) eqn:U; [discriminate|]. clear H.
  assert (N : unsafe_request s (rlhs ru2) (rrhs ru2) b = false).
  { destruct (unsafe_request s (rlhs ru2) (rrhs ru2) b) eqn:E; [|reflexivity]. unfold unsafe in U. rewrite <- U. symmetry. apply existsb_exists. exists (String "+" b). auto. }
  clear U. unfold unsafe_request in N. split; [|split; [|split]].
  - intros K J. apply requests_spec in J. destruct (kind_of s b) as [[]|]; rewrite ?J in N; try discriminate; congruence.
  - intros k K P J. apply kind_of_spec in K. rewrite K in N. apply tests_spec in J. destruct P as [-> | ->]; rewrite J, Bool.orb_true_r in N; discriminate.
  - intros k d K P J. apply kind_of_spec in K. rewrite K in N.
    assert (Q : queries (rlhs ru2) b (fun c => negb (asks_only "busy" c)) = false).
    { destruct P as [[-> | ->]| ->]; repeat (apply Bool.orb_false_iff in N; destruct N as [N ?]); assumption. }
    pose proof (queries_false _ _ _ _ Q J) as E. apply Bool.negb_false_iff in E. apply dict_eqb_single in E. exact E.
  - intros K J. apply kind_of_spec in K. rewrite K in N. pose proof (queries_false _ _ _ _ N J) as E. cbn in E. discriminate.
Qed.

(** ** Failures of compilation *)

Definition only_actr {A} (x : res A) : Prop := forall e, x = Err e -> e = EActr.
Lemma oa_ok {A} (a : A) : only_actr (Ok a). Proof. intros e. discriminate. Qed.
Lemma oa_actr {A} : only_actr (@Err A EActr). Proof. intros e [= <-]. reflexivity. Qed.
Lemma oa_bind {A B} (x : res A) (f : A -> res B) : only_actr x -> (forall a, x = Ok a -> only_actr (f a)) -> only_actr (rbind x f).
Proof. intros H K. destruct x as [a|e]; cbn; [apply K; reflexivity|]. intros e' [= <-]. apply H. reflexivity. Qed.
Lemma oa_rmap {A B} (f : A -> res B) l : (forall a, In a l -> only_actr (f a)) -> only_actr (rmap f l).
Proof. intros H e E. apply rmap_err in E. destruct E as (a & I & E). exact (H a I e E). Qed.
Lemma oa_rename r vs s : only_actr (rename_part r vs s).
Proof.
  unfold rename_part. apply oa_bind; [destruct (var_truthy _); [destruct (smem _ _)|]; auto using oa_ok, @oa_actr|]. intros v _.
  apply oa_bind; [destruct (vnegvars _); [|destruct (smem _ _)]; auto using oa_ok, @oa_actr|]. intros nv _. apply oa_ok.
Qed.
Lemma oa_subst m v s : only_actr (subst_part m v s).
Proof.
  unfold subst_part. apply oa_bind; [|intros a _; apply oa_ok]. destruct (var_truthy _); [|apply oa_ok]. destruct (dget v s0); [|apply oa_ok].
  destruct (truthy _); [|apply oa_ok]. destruct (val_eqb _ _); [apply oa_ok|apply oa_actr].
Qed.
(** Keys have a sign and signs about chunks come with chunks. *)
Definition typed (side : dict content) : Prop :=
  forall k c, In (k, c) side -> exists code b, k = String code b /\ (about_chunk code -> exists ch, c = CChunk ch).
Lemma typed_lhs_typed side : typed_lhs side -> typed side.
Proof.
  intros H k c I. destruct (H k c I) as [b [[-> E]|[-> E]]]; [exists "="%char, b; auto|]. exists "?"%char, b. split; [reflexivity|]. intros [A|[A|[A|A]]]; discriminate.
Qed.
Lemma typed_rhs_typed side : typed_rhs side -> typed side.
Proof.
  intros H k c I. destruct (H k c I) as (code & b & -> & [[A E]|[A|[A|A]]]); exists code, b; (split; [reflexivity|]); [auto|..]; subst code; intros [A|[A|[A|A]]]; discriminate.
Qed.
Lemma oa_with f side : (forall s, only_actr (f s)) -> typed side -> only_actr (with_parts f side).
Proof.
  intros F T. apply oa_rmap. intros [k c] I. cbn [fst snd]. destruct (T k c I) as (code & b & -> & E). destruct (carries code) eqn:C; [|apply oa_ok].
  apply carries_spec in C. destruct (E C) as [ch ->]. cbn [chunk_in rbind]. apply oa_bind; [|intros a _; apply oa_ok].
  unfold with_slots. apply oa_bind; [|intros a _; apply oa_ok]. apply oa_rmap. intros p _. apply oa_bind; [apply F|intros a _; apply oa_ok].
Qed.
Lemma with_typed_lhs f side side' : with_parts f side = Ok side' -> typed_lhs side -> typed_lhs side'.
Proof.
  intros H T k c I. apply with_parts_spec in H. destruct (Forall2_In_r _ _ _ _ H I) as ([k0 c0] & I0 & K & code & b & E & X). cbn [fst snd] in *. subst k.
  destruct (T _ _ I0) as [b' Y]. exists b'. destruct X as [(A & c1 & c' & -> & -> & _)|(A & ->)]; [|exact Y].
  destruct Y as [[Y _]|[_ [d Y]]]; [left; eauto|discriminate].
Qed.
Lemma with_typed_rhs f side side' : with_parts f side = Ok side' -> typed_rhs side -> typed_rhs side'.
Proof.
  intros H T k c I. apply with_parts_spec in H. destruct (Forall2_In_r _ _ _ _ H I) as ([k0 c0] & I0 & K & code & b & E & X). cbn [fst snd] in *. subst k.
  destruct (T _ _ I0) as (code' & b' & E' & Y). exists code', b'. split; [exact E'|]. destruct X as [(A & c1 & c' & -> & -> & _)|(A & ->)]; [|exact Y].
  destruct Y as [[Y _]|Y]; [left; eauto|right; exact Y].
Qed.
Lemma with_slot_keys f c c' : with_slots f c = Ok c' -> dkeys (cslots c') = dkeys (cslots c).
Proof. intros H. apply with_slots_spec in H. destruct H as [_ H]. induction H as [|p q l l' [E _] F IH]; [reflexivity|]. cbn. rewrite E. f_equal. exact IH. Qed.
(** Every chunk of the new side comes from one with the same key and slots. *)
Lemma with_origin f side side' k c' : with_parts f side = Ok side' -> In (k, CChunk c') side' -> exists c, In (k, CChunk c) side /\ dkeys (cslots c') = dkeys (cslots c).
Proof.
  intros H I. apply with_parts_spec in H. destruct (Forall2_In_r _ _ _ _ H I) as ([k0 c0] & I0 & K & code & b & E & X). cbn [fst snd] in *. subst k.
  destruct X as [(A & c1 & c2 & -> & E2 & X)|(A & E2)].
  - injection E2 as <-. exists c1. split; [exact I0|]. exact (with_slot_keys _ _ _ X).
  - exists c'. rewrite E2. auto.
Qed.
Lemma oa_plain tie slots : forall d3 mv, only_actr (match_plain tie slots d3 mv).
Proof. induction slots as [|[n s] slots IH]; intros d3 mv; cbn [match_plain]; [apply oa_ok|]. cbv zeta. destruct (_ && _ && _)%bool; [apply oa_actr|apply IH]. Qed.
Lemma oa_match tie lhs2 : typed lhs2 -> forall temp vals mv, only_actr (match_sides tie lhs2 temp vals mv).
Proof.
  induction lhs2 as [|[k c] lhs2 IH]; intros T temp vals mv; cbn [match_sides]; [apply oa_ok|]. assert (T' : typed lhs2) by (intros k' c' I; apply T; right; exact I).
  destruct (T k c (or_introl eq_refl)) as (code & b & -> & E). destruct (carries code) eqn:C; [|apply IH; exact T']. apply carries_spec in C. destruct (E C) as [ch ->]. cbn [chunk_in rbind].
  destruct (dget temp b) as [[]|]; try (apply IH; exact T'); (apply oa_bind; [apply oa_plain|]; intros mv' _; apply IH; exact T').
Qed.
Definition no_retrieval (vals : dict slotinfo) : Prop := forall b d got, ~ In (b, SRet d got) vals.
Lemma match_sides_incl tie lhs2 : forall temp vals mv vals1 mv1, match_sides tie lhs2 temp vals mv = Ok (vals1, mv1) -> incl vals1 vals.
Proof.
  induction lhs2 as [|[key c] lhs2 IH]; intros temp vals mv vals1 mv1; cbn [match_sides]; [intros [= <- <-]; apply incl_refl|].
  destruct key as [|code b]; [discriminate|]. destruct (carries code); [|apply IH]. intros H. apply rbind_Ok in H. destruct H as (ch & _ & H).
  destruct (dget temp b) as [[]|]; try (apply rbind_Ok in H; destruct H as (mv' & _ & H); exact (IH _ _ _ _ _ H)).
  apply IH in H. intros p I. apply H in I. apply filter_In in I. apply I.
Qed.
Lemma oa_scan s vals : no_retrieval vals -> forall r vs, only_actr (scan_vals s vals r vs).
Proof.
  induction vals as [|[b i] vals IH]; intros N r vs; cbn [scan_vals]; [apply oa_ok|]. assert (N' : no_retrieval vals) by (intros b' d got I; apply (N b' d got); right; exact I).
  destruct i as [| |d got]; try (apply IH; exact N'). destruct (N b d got (or_introl eq_refl)).
Qed.
Lemma oa_subst_vals m v vals : no_retrieval vals -> only_actr (subst_vals m v vals).
Proof.
  intros N. apply oa_rmap. intros [b i] I. cbn [snd fst]. destruct i as [|d|d got]; [apply oa_ok| |destruct (N _ _ _ I)].
  apply oa_bind; [|intros a _; apply oa_ok]. apply oa_rmap. intros q _. apply oa_bind; [apply oa_subst|intros a _; apply oa_ok].
Qed.
Lemma oa_tests vals retr l1 : forall l2, typed_lhs l1 -> typed_lhs l2 -> same_slots l1 l2 -> only_actr (collapse_tests vals retr l1 l2).
Proof.
  induction l1 as [|[k c] l1 IH]; intros l2 T1 T2 S; cbn [collapse_tests]; [apply oa_ok|].
  assert (T1' : typed_lhs l1) by (intros k' c' I; apply T1; right; exact I).
  assert (S' : same_slots l1 l2) by (intros b c1 c2 I; apply S; right; exact I).
  destruct (T1 k c (or_introl eq_refl)) as [b [[-> [c1 ->]]|[-> [d ->]]]]; cbn [Ascii.eqb Bool.eqb].
  - destruct (dget l2 (String "=" b)) as [x|] eqn:E; [|apply oa_bind; [apply IH; assumption|intros [a z] _; apply oa_ok]].
    apply dget_In in E. destruct (T2 _ _ E) as [b0 [[_ [c2 ->]]|[Y _]]]; [|discriminate]. cbn [chunk_in rbind]. apply oa_bind.
    + destruct (dmem vals b || negb (is_buffer retr b))%bool; [|apply oa_ok]. unfold merge_tests. apply oa_bind; [|intros a _; apply oa_ok]. apply oa_rmap. intros p I.
      destruct (dget (cslots c1) (fst p)) as [s1|] eqn:G; [apply oa_ok|]. exfalso. apply dget_None in G. apply G. apply (S b c1 c2); [left; reflexivity|exact E|]. apply in_map. exact I.
    + intros n _. apply oa_bind; [apply IH; [exact T1'| |]|intros [a z] _; apply oa_ok].
      * intros k' c' I. apply T2. apply filter_In in I. apply I.
      * intros b' c1' c2' I J. apply filter_In in J. exact (S' _ _ _ I (proj1 J)).
  - apply oa_bind; [apply IH; assumption|intros [a z] _; apply oa_ok].
Qed.
Lemma rhs_meth_typed code : about_chunk code \/ code = "!"%char \/ code = "?"%char \/ code = "~"%char -> exists m, rhs_meth code = Some m.
Proof. unfold about_chunk. intros [[->|[->|[->| ->]]]|[->|[->| ->]]]; cbn; eauto. Qed.
Lemma rhs_meth_chunk code m : rhs_meth code = Some m -> m <> MExecute -> m <> MClear -> m <> MExtra -> code <> "!"%char /\ code <> "?"%char /\ code <> "~"%char.
Proof. intros H A B C. split; [|split]; intros ->; cbn in H; congruence. Qed.
Lemma oa_acts b r1 : typed_rhs r1 -> only_actr (acts_on b r1).
Proof.
  induction r1 as [|[k c] r1 IH]; intros T; cbn [acts_on]; [apply oa_ok|]. assert (T' : typed_rhs r1) by (intros k' c' I; apply T; right; exact I).
  destruct (T k c (or_introl eq_refl)) as (code & b' & -> & Y). destruct (rhs_meth_typed code) as [m ->]; [destruct Y as [[Y _]|Y]; [left; exact Y|right; exact Y]|].
  destruct m; try (apply IH; exact T'); (destruct (String.eqb _ _); [apply oa_ok|apply IH; exact T']).
Qed.
Lemma oa_rest vals retr rhs1 l2 : only_actr rhs1 -> (forall r1, rhs1 = Ok r1 -> typed_rhs r1) -> typed_lhs l2 ->
  forall l1, typed_lhs l1 -> only_actr (collapse_rest vals retr rhs1 l2 l1).
Proof.
  intros Z R. induction l2 as [|[k c] l2 IH]; intros T2 l1 T1; cbn [collapse_rest]; [apply oa_ok|]. assert (T2' : typed_lhs l2) by (intros k' c' I; apply T2; right; exact I).
  assert (D : forall k x, (exists b, (k = String "=" b /\ exists ch, x = CChunk ch) \/ (k = String "?" b /\ exists d, x = CDict d)) -> typed_lhs (dset l1 k x)).
  { intros k0 x X k' c' I. clear - T1 X I. revert I. induction l1 as [|[k1 c1] l1 IHl]; cbn [dset].
    - intros [I|[]]. injection I as <- <-. exact X.
    - assert (T1' : typed_lhs l1) by (intros k2 c2 J; apply T1; right; exact J). destruct (String.eqb k1 k0) eqn:E.
      + apply String.eqb_eq in E. subst k1. intros [I|I]; [injection I as <- <-; exact X|apply T1; right; exact I].
      + intros [I|I]; [apply T1; left; exact I|exact (IHl T1' I)]. }
  destruct (T2 k c (or_introl eq_refl)) as [b [[-> [c2 ->]]|[-> [d ->]]]]; cbn [Ascii.eqb Bool.eqb chunk_in rbind].
  - destruct (dmem vals b || negb (is_buffer retr b))%bool; apply IH; auto. apply D. eauto.
  - apply oa_bind; [exact Z|]. intros r1 E1. apply oa_bind; [apply oa_acts; exact (R _ E1)|]. intros a _. destruct a; [apply IH; assumption|].
    destruct (dget l1 (String "?" b)) as [x|] eqn:E; [|apply IH; [exact T2'|apply D; eauto]].
    apply dget_In in E. destruct (T1 _ _ E) as [b0 [[Y _]|[_ [d1 ->]]]]; [discriminate|]. apply IH; [exact T2'|apply D; eauto].
Qed.
Lemma oa_action vals r p : typed_rhs r -> In p r -> only_actr (merge_action vals p).
Proof.
  intros T I. destruct p as [k c]. destruct (T k c I) as (code & b & -> & Y). unfold merge_action. cbn [fst snd].
  destruct (rhs_meth_typed code) as [m Em]; [destruct Y as [[Y _]|Y]; [left; exact Y|right; exact Y]|]. rewrite Em.
  destruct m; try apply oa_ok; (destruct (dget vals b); [|apply oa_ok]);
    (destruct Y as [[_ [ch ->]]|Y]; [cbn [chunk_in rbind]; apply oa_ok|]; exfalso; destruct (rhs_meth_chunk _ _ Em) as (N1 & N2 & N3); try discriminate; tauto).
Qed.
Lemma oa_keep retr r1 : typed_rhs r1 -> forall acc, only_actr (keep_actions retr r1 acc).
Proof.
  induction r1 as [|[k c] r1 IH]; intros T acc; cbn [keep_actions]; [apply oa_ok|]. assert (T' : typed_rhs r1) by (intros k' c' I; apply T; right; exact I).
  destruct (T k c (or_introl eq_refl)) as (code & b & -> & Y). destruct (existsb _ _); [apply IH; exact T'|]. destruct (is_buffer _ _); [apply IH; exact T'|].
  destruct (rhs_meth_typed code) as [m Em]; [destruct Y as [[Y _]|Y]; [left; exact Y|right; exact Y]|]. rewrite Em.
  destruct m; try (apply IH; exact T');
    (destruct Y as [[_ [ch ->]]|Y]; [cbn [chunk_in rbind]; apply IH; exact T'|]; exfalso; destruct (rhs_meth_chunk _ _ Em) as (N1 & N2 & N3); try discriminate; tauto).
Qed.
Lemma oa_place p rules n1 n2 u1 lhs rhs : only_actr lhs -> only_actr rhs -> forall fuel idx, only_actr (place p rules n1 n2 u1 lhs rhs idx fuel).
Proof.
  intros HL HR. induction fuel as [|fuel IH]; intros idx; cbn [place]; [apply oa_ok|]. destruct (dget _ _) as [old|].
  - apply oa_bind; [exact HL|]. intros l _. apply oa_bind; [destruct (side_eqb _ _); [|apply oa_ok]; apply oa_bind; [exact HR|intros r _; apply oa_ok]|]. intros [] _; [apply oa_ok|apply IH].
  - apply oa_bind; [exact HL|]. intros l _. apply oa_bind; [exact HR|]. intros r _. apply oa_ok.
Qed.
Lemma tests_typed vals retr l1 : typed_lhs l1 -> forall l2 o1 o2, collapse_tests vals retr l1 l2 = Ok (o1, o2) -> typed_lhs o1.
Proof.
  intros Tl1. induction l1 as [|[k c] l1 IH]; intros l2 o1 o2; cbn [collapse_tests]; [intros [= <- <-] k c []|].
  assert (Tl1' : typed_lhs l1) by (intros k' c' J; apply Tl1; right; exact J). specialize (IH Tl1').
  destruct (Tl1 k c (or_introl eq_refl)) as [b [[-> [c1 ->]]|[-> [d ->]]]]; cbn [Ascii.eqb Bool.eqb].
  - destruct (dget l2 (String "=" b)) as [x|]; intros H.
    + apply rbind_Ok in H. destruct H as (ch2 & _ & H). apply rbind_Ok in H. destruct H as (ch1 & _ & H). apply rbind_Ok in H. destruct H as (n & _ & H).
      apply rbind_Ok in H. destruct H as ([a z] & H & E). injection E as <- <-. intros k c [J|J]; [injection J as <- <-; eauto|exact (IH _ _ _ H _ _ J)].
    + apply rbind_Ok in H. destruct H as ([a z] & H & E). injection E as <- <-. intros k c [J|J]; [injection J as <- <-; eauto|exact (IH _ _ _ H _ _ J)].
  - intros H. apply rbind_Ok in H. destruct H as ([a z] & H & E). injection E as <- <-. intros k c [J|J]; [injection J as <- <-; eauto|exact (IH _ _ _ H _ _ J)].
Qed.
(** Without retrievals, compiling rules that exist fails with nothing but ACTRError. *)
Section Failures.
Variable tie : string -> string -> bool.
Variable s : st.
Variables n1 n2 : string.
Variables ru1 ru2 : rule.
Variable vals : dict slotinfo.
Hypothesis T1 : typed_lhs (rlhs ru1).
Hypothesis T2 : typed_lhs (rlhs ru2).
Hypothesis R1 : typed_rhs (rrhs ru1).
Hypothesis R2 : typed_rhs (rrhs ru2).
Hypothesis Sl : same_slots (rlhs ru1) (rlhs ru2).
Hypothesis N : no_retrieval vals.
Lemma combine_sides c : combine tie s n2 ru1 ru2 vals = Ok c -> match c with None => True | Some (lhs, rhs) => only_actr lhs /\ only_actr rhs end.
Proof.
  intros H. unfold combine in H. destruct (unsafe _ _ _ _); [injection H as <-; exact I|]. apply rbind_Ok in H. destruct H as ([[retr vs]|] & _ & H); [|injection H as <-; exact I].
  apply rbind_Ok in H. destruct H as (lhs2 & H2 & H). apply rbind_Ok in H. destruct H as ([vals1 mv] & Hm & H). apply rbind_Ok in H. destruct H as (vals2 & _ & H). cbv zeta in H. injection H as <-.
  assert (T2' : typed_lhs lhs2) by exact (with_typed_lhs _ _ _ H2 T2).
  assert (W1 : only_actr (with_parts (subst_part (fst mv) (snd mv)) (rrhs ru1))) by (apply oa_with; [intros; apply oa_subst|apply typed_rhs_typed; exact R1]).
  split.
  - unfold collapse_lhs. apply oa_bind; [apply oa_with; [intros; apply oa_subst|apply typed_lhs_typed; exact T1]|]. intros l1 L1.
    apply oa_bind; [apply oa_with; [intros; apply oa_subst|apply typed_lhs_typed; exact T2']|]. intros l2 L2. apply oa_bind.
    + apply oa_tests; [exact (with_typed_lhs _ _ _ L1 T1)|exact (with_typed_lhs _ _ _ L2 T2')|]. intros b c1 c2 I1 I2.
      destruct (with_origin _ _ _ _ _ L1 I1) as (c1' & J1 & ->). destruct (with_origin _ _ _ _ _ L2 I2) as (c2' & J2 & ->). destruct (with_origin _ _ _ _ _ H2 J2) as (c2'' & J2' & ->).
      exact (Sl b _ _ J1 J2').
    + intros [o1 o2] Ht. destruct (collapse_tests_keys _ _ _ _ _ _ Ht) as (_ & To2 & _).
      apply oa_rest; [exact W1|intros r1 Er; exact (with_typed_rhs _ _ _ Er R1)|intros k c J; apply (with_typed_lhs _ _ _ L2 T2'), To2, J|].
      exact (tests_typed _ _ _ (with_typed_lhs _ _ _ L1 T1) _ _ _ Ht).
  - unfold collapse_rhs. apply oa_bind; [exact W1|]. intros r1 L1. apply oa_bind.
    + apply oa_bind; [apply oa_with; [intros; apply oa_rename|apply typed_rhs_typed; exact R2]|]. intros r2 L2. apply oa_with; [intros; apply oa_subst|]. apply typed_rhs_typed. exact (with_typed_rhs _ _ _ L2 R2).
    + intros r2 L2. apply rbind_Ok in L2. destruct L2 as (r2' & L2' & L2). apply oa_bind; [|intros acc _; apply oa_keep; exact (with_typed_rhs _ _ _ L1 R1)].
      apply oa_rmap. intros q J. eapply oa_action; [|exact J]. exact (with_typed_rhs _ _ _ L2 (with_typed_rhs _ _ _ L2' R2)).
Qed.
Lemma combine_only_actr : only_actr (combine tie s n2 ru1 ru2 vals).
Proof.
  unfold combine. destruct (unsafe _ _ _ _); [apply oa_ok|]. apply oa_bind; [apply oa_scan; exact N|]. intros [[retr vs]|] _; [|apply oa_ok].
  apply oa_bind; [apply oa_with; [intros; apply oa_rename|apply typed_lhs_typed; exact T2]|]. intros lhs2 H2. apply oa_bind; [apply oa_match; apply typed_lhs_typed; exact (with_typed_lhs _ _ _ H2 T2)|].
  intros [vals1 mv] Hm. apply oa_bind; [|intros vals2 _; apply oa_ok]. apply oa_subst_vals. intros b d got J. apply (N b d got). exact (match_sides_incl _ _ _ _ _ _ _ Hm _ J).
Qed.
Theorem compile_only_actr e : dget (srules s) n1 = Some ru1 -> dget (srules s) n2 = Some ru2 -> compile_rules tie s n1 n2 vals = Err e -> e = EActr.
Proof.
  intros E1 E2. unfold compile_rules. rewrite E1, E2. apply oa_bind; [apply combine_only_actr|]. intros c Hc. pose proof (combine_sides c Hc) as K.
  destruct c as [[lhs rhs]|]; [|apply oa_ok]. apply oa_place; apply K.
Qed.
End Failures.
