(** Firing a rule that tests one buffer and modifies it, when its slots hold constants, variables or
    nothing. *)
From Coq Require Import Lia.
From Verif Require Import Base BaseFacts Chunks ChunkFacts ChunkMatch TypeFacts DecMem Buffers BufferFacts ResolveFacts ModifyFacts Productions ProdSpec ProdFacts EffectFacts HarvestFacts Compile CompileFacts CompileSpec CompileTerms.
From Verif Require Import ChunkSpec.
Local Open Scope string_scope.
Local Open Scope list_scope.
Arguments hval_eqb : simpl never.
Arguments hash_value : simpl nomatch.
Arguments val_eqb : simpl nomatch.

(** ** The action *)

(** What firing leaves alone. *)
Definition still (s s' : st) : Prop := srules s' = srules s /\ snames s' = snames s /\ sp s' = sp s.
Lemma still_refl s : still s s. Proof. split; [|split]; reflexivity. Qed.
Lemma still_trans a b c : still a b -> still b c -> still a c.
Proof. intros (A1 & A2 & A3) (B1 & B2 & B3). split; [|split]; congruence. Qed.

Lemma harvest_same names t : forall s, still s (harvest names t s) /\ sw (harvest names t s) = sw s /\ scur (harvest names t s) = scur s.
Proof.
  induction names as [|n names IH]; intros s; cbn [harvest]; [split; [apply still_refl|auto]|].
  destruct (dget (snames s) n) as [i|]; [|apply IH].
  destruct (IH (add_proc n MClear i CNone (svars s) t s)) as ((A & B & C) & D & E). split; [split; [|split]|]; auto.
Qed.
Lemma set_state_still i v s : still s (set_state i v s) /\ sw (set_state i v s) = sw s /\ scur (set_state i v s) = scur s /\ srule (set_state i v s) = srule s.
Proof. unfold set_state, set_attrs. destruct (nth_error (smods s) i); repeat split. Qed.

(** What is recorded for compilation. *)
Definition noted (s : st) (g : string) (p m : chunk) : dict slotinfo :=
  if qcompile (sp s) then dset (scur s) g (SDict (dupdate (cslots p) (set_slots m))) else scur s.

Section Update.
Variables (O : oracle) (t : Q) (g : string) (p m : chunk).

Lemma update_resume s i r ru : dget (snames s) g = Some i ->
  srule s = Some r -> dget (srules s) r = Some ru -> rlhs ru = [(String "=" g, CChunk p)] ->
  match modify_call i (CChunk m) (svars s) s with
  | (w', Ok tt) => exists s' ns e k, resume (g_update O [(String "=" g, CChunk m)] t) s = (s', ns, OYield e k) /\
      still s s' /\ sw s' = w' /\ scur s' = noted s g p m /\
      exists s'' ns', resume k s' = (s'', ns', ODone) /\ still s s'' /\ sw s'' = w' /\ scur s'' = noted s g p m
  | (_, Err e) => exists s' ns, resume (g_update O [(String "=" g, CChunk m)] t) s = (s', ns, ORaise e)
  end.
Proof.
  intros En Er Eru El. unfold g_update. cbn [resume].
  replace (ordered_rhs [(String "=" g, CChunk m)]) with (Ok [(String "=" g, CChunk m)]) by reflexivity.
  cbn [actions rhs_meth resume]. cbn. rewrite En. cbn.
  set (s1 := set_state i "busy" (set_state i "busy" s)).
  assert (S1 : still s s1 /\ sw s1 = sw s /\ scur s1 = scur s /\ srule s1 = srule s).
  { unfold s1. destruct (set_state_still i "busy" s) as (A & B & C & D). destruct (set_state_still i "busy" (set_state i "busy" s)) as (A' & B' & C' & D').
    split; [eapply still_trans; eassumption|]. split; [congruence|]. split; congruence. }
  destruct S1 as ((R1 & N1 & P1) & W1 & C1 & U1).
  assert (Rc : record_modify g (CChunk m) s1 = Ok (noted s g p m)).
  { unfold record_modify, noted. rewrite P1. destruct (qcompile (sp s)); [|congruence]. rewrite U1, Er, R1, Eru, El. cbn. rewrite String.eqb_refl. rewrite C1. reflexivity. }
  assert (MC : modify_call i (CChunk m) (svars s) (set_cur (noted s g p m) (slastv s1) s1) = modify_call i (CChunk m) (svars s) s).
  { unfold modify_call, on_buf. cbn [sw set_cur]. rewrite W1. reflexivity. }
  rewrite Rc. unfold gcall. cbn [resume gseq]. rewrite MC.
  destruct (modify_call i (CChunk m) (svars s) s) as [w' [[]|e]]; cbn [resume gseq].
  2:{ eexists _, _. reflexivity. }
  eexists _, _, _, _. split; [reflexivity|].
  set (s2 := set_state i "free" (set_w w' (set_cur (noted s g p m) (slastv s1) s1))).
  assert (S2 : still s s2 /\ sw s2 = w' /\ scur s2 = noted s g p m).
  { unfold s2. destruct (set_state_still i "free" (set_w w' (set_cur (noted s g p m) (slastv s1) s1))) as ((A1 & A2 & A3) & B & C & D).
    split; [split; [|split]; [rewrite A1|rewrite A2|rewrite A3]; assumption|]. split; [exact B|exact C]. }
  destruct S2 as (S2 & W2 & C2). split; [exact S2|]. split; [exact W2|]. split; [exact C2|].
  cbn [resume]. destruct (qstrict (sp s2)); cbn [resume].
  - eexists _, _. split; [reflexivity|]. destruct (harvest_same (map fst (ddel (bpos (svars s)) g) ++ map (fun x => String "=" x) (map fst (bneg (svars s)))) t s2) as (A & B & C).
    split; [eapply still_trans; eassumption|]. split; [rewrite B; exact W2|rewrite C; exact C2].
  - eexists _, _. split; [reflexivity|]. auto.
Qed.
End Update.

Lemma modify_call_buf i m s b : nth_error (bufs (sw s)) i = Some b -> bkind b <> KLocation ->
  modify_call i (CChunk m) (svars s) s = modify_buf (sw s) i b m (svars s) None.
Proof. intros Eb Kb. unfold modify_call, on_buf. rewrite Eb. destruct (bkind b); congruence. Qed.

(** The record of a rule that fires. *)
Lemma fires_noted O t g p m s r ru s' : dget (srules s) r = Some ru -> rlhs ru = [(String "=" g, CChunk p)] -> rrhs ru = [(String "=" g, CChunk m)] ->
  fires O t s r s' -> scur s' = noted s g p m /\ In g (dkeys (snames s)).
Proof.
  intros Er El Eh (ru' & b' & Er' & Cd & Co). rewrite Er in Er'. injection Er' as <-. rewrite El in Cd. rewrite Eh in Co.
  inversion Cd as [|k c l b0 b1 b2 Hc Hl]; subst. inversion Hc as [name p0 d rest b0 bm Hd Hv Hle|]; subst.
  unfold content_of in Hd. destruct (dget (snames s) g) as [i|] eqn:En; [|discriminate]. split; [|apply (dget_Some_key _ _ En)].
  set (s0 := set_vars b' (set_rule (Some r) s)) in *.
  pose proof (update_resume O t g p m s0 i r ru En eq_refl Er El) as U.
  destruct (modify_call i (CChunk m) (svars s0) s0) as [w' [[]|e]].
  - destruct U as (s1 & ns & e & k & R & _ & _ & _ & s2 & ns' & R2 & S2 & W2 & C2).
    inversion Co as [g0 s3 s4 ns2 Q|g0 s3 s4 ns2 e2 k2 s5 Q Co2]; subst; rewrite R in Q; [discriminate|].
    injection Q as <- <- <- <-. inversion Co2 as [g0 s3 s4 ns3 Q|g0 s3 s4 ns3 e2 k2 s6 Q Co3]; subst; rewrite R2 in Q; [|discriminate].
    injection Q as <- <-. exact C2.
  - destruct U as (s1 & ns & R). exfalso. inversion Co as [g0 s3 s4 ns2 Q|g0 s3 s4 ns2 e2 k2 s5 Q Co2]; subst; rewrite R in Q; discriminate.
Qed.

(** The rule [r], with the test [p] and the action [m], fires. *)
Lemma fires_simple O t g p m s r ru i b s' : dget (snames s) g = Some i -> nth_error (bufs (sw s)) i = Some b -> bkind b <> KLocation ->
  dget (srules s) r = Some ru -> rlhs ru = [(String "=" g, CChunk p)] -> rrhs ru = [(String "=" g, CChunk m)] ->
  fires O t s r s' ->
  exists d rest b1, bdata b = d :: rest /\ chunk_le nobind p d = (b1, true) /\
    modify_buf (sw s) i b m (MkB (dset (bpos b1) g (VChunk d)) (bneg b1)) None = (sw s', Ok tt) /\ still s s' /\ scur s' = noted s g p m.
Proof.
  intros En Eb Kb Er El Eh (ru' & b' & Er' & Cd & Co). rewrite Er in Er'. injection Er' as <-. rewrite El in Cd. rewrite Eh in Co.
  inversion Cd as [|k c l b0 b1 b2 Hc Hl]; subst. inversion Hl; subst. inversion Hc as [name p0 d rest b0 bm Hd Hv Hle|]; subst.
  unfold content_of in Hd. rewrite En, Eb in Hd. exists d, rest, bm. split; [exact Hd|]. split; [exact Hle|].
  set (s0 := set_vars (MkB (dset (bpos bm) g (VChunk d)) (bneg bm)) (set_rule (Some r) s)) in *.
  pose proof (update_resume O t g p m s0 i r ru En eq_refl Er El) as U. rewrite (modify_call_buf i m s0 b Eb Kb) in U. change (sw s0) with (sw s) in U.
  change (svars s0) with (MkB (dset (bpos bm) g (VChunk d)) (bneg bm)) in U.
  destruct (modify_buf (sw s) i b m (MkB (dset (bpos bm) g (VChunk d)) (bneg bm)) None) as [w' [[]|e]].
  - destruct U as (s1 & ns & e & k & R & _ & _ & _ & s2 & ns' & R2 & S2 & W2 & C2).
    inversion Co as [g0 s3 s4 ns2 Q|g0 s3 s4 ns2 e2 k2 s5 Q Co2]; subst; rewrite R in Q; [discriminate|].
    injection Q as <- <- <- <-. inversion Co2 as [g0 s3 s4 ns3 Q|g0 s3 s4 ns3 e2 k2 s6 Q Co3]; subst; rewrite R2 in Q; [|discriminate].
    injection Q as <- <-. split; [reflexivity|]. split; [exact S2|exact C2].
  - destruct U as (s1 & ns & R). exfalso. inversion Co as [g0 s3 s4 ns2 Q|g0 s3 s4 ns2 e2 k2 s5 Q Co2]; subst; rewrite R in Q; discriminate.
Qed.
Lemma fires_simple_if O t g p m s r ru i b d rest b1 w' : dget (snames s) g = Some i -> nth_error (bufs (sw s)) i = Some b -> bkind b <> KLocation ->
  dget (srules s) r = Some ru -> rlhs ru = [(String "=" g, CChunk p)] -> rrhs ru = [(String "=" g, CChunk m)] ->
  bdata b = d :: rest -> chunk_le nobind p d = (b1, true) ->
  modify_buf (sw s) i b m (MkB (dset (bpos b1) g (VChunk d)) (bneg b1)) None = (w', Ok tt) -> exists s', fires O t s r s'.
Proof.
  intros En Eb Kb Er El Eh Hd Hle M.
  set (s0 := set_vars (MkB (dset (bpos b1) g (VChunk d)) (bneg b1)) (set_rule (Some r) s)).
  pose proof (update_resume O t g p m s0 i r ru En eq_refl Er El) as U. rewrite (modify_call_buf i m s0 b Eb Kb) in U. change (sw s0) with (sw s) in U.
  change (svars s0) with (MkB (dset (bpos b1) g (VChunk d)) (bneg b1)) in U. rewrite M in U.
  destruct U as (s1 & ns & e & k & R & _ & _ & _ & s2 & ns' & R2 & _).
  exists s2, ru, (MkB (dset (bpos b1) g (VChunk d)) (bneg b1)). split; [exact Er|]. split.
  - rewrite El. econstructor; [|constructor]. eapply test_holds; [unfold content_of; rewrite En, Eb; exact Hd|discriminate|exact Hle].
  - rewrite Eh. exact (completes_yield _ _ _ _ _ _ _ R (completes_done _ _ _ _ R2)).
Qed.

(** ** Chunks of texts *)

Definition datum (t : string) : Prop := t <> "" /\ t <> ">" /\ t <> "<".
Definition text (d : chunk) (n : string) : option string :=
  match dget (cslots d) n with Some (Some w) => match vvals w with VStr t => Some t | _ => None end | _ => None end.
(** Every slot of [d] holds a text; the slots are [ks]. *)
Definition flat (ks : list string) (d : chunk) : Prop :=
  wf_chunk d /\ incl (dkeys (cslots d)) ks /\
  forall n, In n ks -> exists t, datum t /\ dget (cslots d) n = Some (plain (VStr t)).
(** What a chunk of a rule has in the slot [n]. *)
Definition at_ (c : chunk) (n : string) : term := match dget (cslots c) n with Some s => tm s | None => TBlank end.
(** A chunk of a rule: slots [ks], each with a constant, a variable or nothing. *)
Record simple_chunk (ks : list string) (g : string) (c : chunk) : Prop := MkSC {
  sc_keys : dkeys (cslots c) = ks;
  sc_simple : forall n s, In (n, s) (cslots c) -> simple s;
  sc_names : forall n, at_ c n <> TVar g }.

Lemma flat_text ks d n : flat ks d -> In n ks -> exists t, datum t /\ text d n = Some t /\ slot_value d n = VStr t /\ dget (cslots d) n = Some (plain (VStr t)).
Proof. intros (_ & _ & F) Hn. destruct (F n Hn) as (t & D & E). exists t. unfold text, slot_value. rewrite E. auto. Qed.
Lemma flat_fact ks d : flat ks d -> fact d.
Proof.
  intros (W & I & F). constructor. intros n w Hin. destruct W as [c Inc _].
  assert (Hk : In n (dkeys (cslots c))) by (apply in_map_iff; exists (n, Some w); auto).
  destruct (F n (I n Hk)) as (t & _ & E). rewrite (dget_NoDup _ _ _ (increasing_NoDup _ Inc) Hin) in E. injection E as ->. cbn. repeat split. constructor.
Qed.

Section Fire.
Variables (ks : list string) (g T : string).
Hypothesis Inc : increasing ks.
Let Nd : NoDup ks := increasing_NoDup _ Inc.

Lemma at_simple c n s : simple_chunk ks g c -> In (n, s) (cslots c) -> at_ c n = tm s /\ simple s.
Proof.
  intros [K S _] Hin. split; [|exact (S n s Hin)]. unfold at_. rewrite (dget_NoDup (cslots c) n s); [reflexivity| |exact Hin]. rewrite K. exact Nd.
Qed.
Lemma at_in c n : simple_chunk ks g c -> In n ks -> exists s, In (n, s) (cslots c) /\ at_ c n = tm s /\ simple s.
Proof.
  intros H Hn. pose proof (sc_keys _ _ _ H) as K. rewrite <- K in Hn. apply in_map_iff in Hn. destruct Hn as ([n' s] & E & Hin). cbn in E. subst n'.
  exists s. split; [exact Hin|]. apply (at_simple _ _ _ H Hin).
Qed.
Lemma at_out c n : simple_chunk ks g c -> ~ In n ks -> at_ c n = TBlank.
Proof. intros H Hn. unfold at_. rewrite <- (sc_keys _ _ _ H) in Hn. apply dget_None in Hn. rewrite Hn. reflexivity. Qed.
Lemma pattern_wf c : simple_chunk ks g c -> wf_chunk c /\ const_pattern c /\ none_alone c.
Proof.
  intros H. split; [|split].
  - constructor; [rewrite (sc_keys _ _ _ H); exact Inc|]. intros n w Hin. pose proof (sc_simple _ _ _ H _ _ Hin) as S. inversion S; subst; cbn; (split; [constructor|intros v []]).
  - intros n w Hin. pose proof (sc_simple _ _ _ H _ _ Hin) as S. inversion S; subst; cbn; (split; [constructor|intros v []]).
  - intros n w Hin E. pose proof (sc_simple _ _ _ H _ _ Hin) as S. inversion S; subst; cbn in *; try discriminate; reflexivity.
Qed.

(** *** The test *)

Lemma match_slots_values d x v : forall slots b, dget (bpos (fst (match_slots b slots d))) x = Some v ->
  dget (bpos b) x = Some v \/ exists n, In n (dkeys slots) /\ v = slot_value d n.
Proof.
  induction slots as [|[n s] slots IH]; intros b; cbn [match_slots]; [auto|].
  destruct (match_slot b (splitting s) (slot_value d n)) as [b1 ok] eqn:E.
  assert (H1 : dget (bpos b1) x = Some v -> dget (bpos b) x = Some v \/ v = slot_value d n).
  { revert E. unfold match_slot. destruct (match_var b (vvar (splitting s)) (slot_value d n)) as [b2 ok2] eqn:Ev.
    assert (H2 : dget (bpos b2) x = Some v -> dget (bpos b) x = Some v \/ v = slot_value d n).
    { revert Ev. unfold match_var. destruct (var_truthy (vvar (splitting s))) as [y|]; [|intros [= <- _]; auto].
      destruct (existsb _ _); [intros [= <- _]; auto|]. destruct (dget (bpos b) y) as [u|] eqn:Ey; intros [= <- _]; [auto|]. cbn [bpos].
      rewrite dget_dset. destruct (String.eqb_spec y x) as [->|_]; [|auto]. intros [= <-]. auto. }
    destruct ok2; [|intros [= <- _]; exact H2].
    pose proof (match_negvars_pos (vnegvars (splitting s)) (slot_value d n) b2) as Hp.
    destruct (match_negvars b2 (vnegvars (splitting s)) (slot_value d n)) as [b3 ok3]. cbn [fst] in Hp.
    destruct ok3; intros [= <- _]; rewrite Hp; exact H2. }
  cbn [dkeys map fst]. destruct ok; cbn [fst].
  - intros H. destruct (IH _ H) as [H'|(n' & Hn & E')]; [|right; exists n'; split; [right; exact Hn|exact E']].
    destruct (H1 H') as [H2|H2]; [auto|right; exists n; split; [left; reflexivity|exact H2]].
  - intros H. destruct (H1 H) as [H2|H2]; [auto|right; exists n; split; [left; reflexivity|exact H2]].
Qed.
Lemma chunk_le_values b p d b' x v : chunk_le b p d = (b', true) -> dget (bpos b') x = Some v ->
  dget (bpos b) x = Some v \/ exists n, In n (dkeys (cslots p)) /\ v = slot_value d n.
Proof.
  unfold chunk_le, match_chunk. destruct (chunk_eqb b p d); [intros [= <-]; auto|]. intros E H.
  apply match_slots_values. rewrite E. exact H.
Qed.

Lemma same_str_inv t u : same_content (VStr t) (VStr u) -> t = u.
Proof. intros [[E1 E2]|(_ & _ & E)]; [inversion E1; inversion E2; congruence|inversion E; reflexivity]. Qed.

(** The texts that variables are bound to. *)
Definition reading (b : bindings) (x : string) : string := match dget (bpos b) x with Some (VStr t) => t | _ => "" end.

(** [f] makes the test [p] true of [d]. *)
Definition passes (f : string -> string) (p d : chunk) : Prop :=
  forall n, In n ks -> at_ p n <> TBlank -> eval f (at_ p n) = text d n.

Lemma le_never p d : simple_chunk ks g p -> flat ks d -> one_empty nobind p d /\ names_safe nobind p.
Proof.
  intros Hp Hd. split.
  - left. split; [discriminate|]. split; [discriminate|]. intros n Hn. rewrite (sc_keys _ _ _ Hp) in Hn.
    destruct (flat_text _ _ _ Hd Hn) as (t & _ & _ & E & _). rewrite E. discriminate.
  - intros n w x _ _ Hx. right. destruct x as [|c x]; [congruence|]. exists (String c ""). split; [left; reflexivity|reflexivity].
Qed.

Theorem test_passes p d b : simple_chunk ks g p -> flat ks d -> chunk_le nobind p d = (b, true) ->
  passes (reading b) p d /\ NoDup (dkeys (bpos b)) /\
  (forall n x, at_ p n = TVar x -> dget (bpos b) x = Some (VStr (reading b x))) /\
  (forall x v, dget (bpos b) x = Some v -> exists t, v = VStr t /\ datum t /\ reading b x = t) /\
  bneg b = [].
Proof.
  intros Hp Hd H. destruct (pattern_wf p Hp) as (Wp & Cp & Np). destruct (le_never p d Hp Hd) as (Oe & Ns).
  assert (Gn : good_bindings nobind) by (split; [|split]; discriminate).
  destruct (chunk_le_sound Wp Cp (proj1 Hd) (flat_fact _ _ Hd) Gn Oe Ns Np H) as (Sa & _ & _).
  assert (Va : forall x v, dget (bpos b) x = Some v -> exists t, v = VStr t /\ datum t /\ reading b x = t).
  { intros x v E. destruct (chunk_le_values _ _ _ _ _ _ H E) as [X|(n & Hn & X)]; [discriminate|].
    rewrite (sc_keys _ _ _ Hp) in Hn. destruct (flat_text _ _ _ Hd Hn) as (t & D & _ & V & _). exists t. rewrite V in X. split; [exact X|]. split; [exact D|].
    unfold reading. rewrite E, X. reflexivity. }
  assert (Q : forall n s, In (n, s) (cslots p) -> tm s <> TBlank -> eval (reading b) (tm s) = text d n /\ forall x, tm s = TVar x -> dget (bpos b) x <> None).
  { intros n s Hin Nb. assert (Hn : In n ks) by (rewrite <- (sc_keys _ _ _ Hp); apply in_map_iff; exists (n, s); auto).
    destruct (flat_text _ _ _ Hd Hn) as (t & D & Tx & V & _). pose proof (sc_simple _ _ _ Hp _ _ Hin) as S.
    destruct S as [| | c P | x P]; [elim Nb; reflexivity|elim Nb; reflexivity| |].
    - cbn. destruct (Sa n _ Hin) as (_ & _ & S3 & _). cbn in S3. rewrite V in S3. split; [|discriminate]. rewrite Tx. f_equal. apply same_str_inv. apply S3.
      intros A. inversion A; subst. destruct P. congruence.
    - cbn. destruct (Sa n _ Hin) as (S1 & _). destruct (S1 x eq_refl P) as (v & Ev & Sc). rewrite V in Sc.
      destruct (Va _ _ Ev) as (u & -> & _ & R). rewrite R, Tx. split; [f_equal; apply same_str_inv; exact Sc|]. intros y [= <-]. congruence. }
  split; [|split; [|split; [|split]]].
  - intros n Hn Nb. destruct (at_in _ _ Hp Hn) as (s & Hin & E & _). rewrite E in *. apply (Q n s Hin Nb).
  - pose proof (chunk_le_extends nobind p d) as (E1 & _). rewrite H in E1. apply E1. constructor.
  - intros n x E. assert (Hn : In n ks) by (destruct (in_dec string_dec n ks) as [Hn|Hn]; [exact Hn|rewrite (at_out _ _ Hp Hn) in E; discriminate]).
    destruct (at_in _ _ Hp Hn) as (s & Hin & Es & _). rewrite Es in E. destruct (Q n s Hin) as (_ & Q2); [rewrite E; discriminate|].
    destruct (dget (bpos b) x) as [v|] eqn:Ev; [|elim (Q2 x E Ev)]. destruct (Va _ _ Ev) as (u & -> & _ & R). rewrite R. reflexivity.
  - exact Va.
  - clear -H Hp. assert (Mv : forall bb o m, bneg (fst (match_var bb o m)) = bneg bb).
    { intros bb o m. unfold match_var. destruct (var_truthy o) as [y|]; [|reflexivity]. destruct (existsb _ _); [reflexivity|]. destruct (dget (bpos bb) y); reflexivity. }
    assert (L : forall slots bb, (forall n s, In (n, s) slots -> simple s) -> bneg (fst (match_slots bb slots d)) = bneg bb).
    { induction slots as [|[n s] slots IH]; intros bb Hs; cbn [match_slots]; [reflexivity|].
      assert (M : bneg (fst (match_slot bb (splitting s) (slot_value d n))) = bneg bb).
      { unfold match_slot. specialize (Mv bb (vvar (splitting s)) (slot_value d n)). destruct (match_var bb (vvar (splitting s)) (slot_value d n)) as [b2 ok2].
        cbn [fst] in Mv. pose proof (Hs n s (or_introl eq_refl)) as S. destruct ok2; [|exact Mv]. destruct S; exact Mv. }
      destruct (match_slot bb (splitting s) (slot_value d n)) as [b1 ok]. cbn [fst] in M. destruct ok; [|exact M].
      rewrite IH; [exact M|]. intros n' s' Hin. apply (Hs n' s'). right. exact Hin. }
    revert H. unfold chunk_le, match_chunk. destruct (chunk_eqb nobind p d); [intros [= <-]; reflexivity|]. intros E.
    specialize (L (cslots p) nobind (sc_simple _ _ _ Hp)). rewrite E in L. exact L.
Qed.
Theorem passes_test f p d : simple_chunk ks g p -> flat ks d -> passes f p d -> exists b, chunk_le nobind p d = (b, true).
Proof.
  intros Hp Hd H. destruct (pattern_wf p Hp) as (Wp & Cp & Np). destruct (le_never p d Hp Hd) as (Oe & Ns).
  assert (Gn : good_bindings nobind) by (split; [|split]; discriminate).
  destruct (@chunk_le_complete nobind p d (fun x => Some (VStr (f x)))) as (E & _); auto.
  - exact (proj1 Hd).
  - exact (flat_fact _ _ Hd).
  - intros n w Hin _. assert (Hn : In n ks) by (rewrite <- (sc_keys _ _ _ Hp); apply in_map_iff; exists (n, Some w); auto).
    destruct (flat_text _ _ _ Hd Hn) as (t & _ & _ & V & _). rewrite V. discriminate.
  - split; discriminate.
  - intros n w Hin. assert (Hn : In n ks) by (rewrite <- (sc_keys _ _ _ Hp); apply in_map_iff; exists (n, Some w); auto).
    destruct (flat_text _ _ _ Hd Hn) as (t & D & Tx & V & _). destruct (at_simple _ _ _ Hp Hin) as (Ea & S). specialize (H n Hn). rewrite Ea, Tx in H. rewrite V.
    inversion S as [|W|c P W|x P W]; subst w; cbn in H; cbn [vvar vvals vnegvals vnegvars].
    + split; [discriminate|]. split; [intros x v []|]. split; [intros A; elim A; constructor|intros v []].
    + assert (c = t) as -> by (apply (f_equal (fun o => match o with Some z => z | None => t end)) in H; [exact H|discriminate]).
      split; [discriminate|]. split; [intros x v []|]. split; [intros _; apply same_content_refl|intros v []].
    + assert (f x = t) as F by (apply (f_equal (fun o => match o with Some z => z | None => t end)) in H; [exact H|discriminate]).
      split; [intros y [= <-] _; exists (VStr (f x)); split; [reflexivity|rewrite F; apply same_content_refl]|]. split; [intros y v []|].
      split; [intros A; elim A; constructor|intros v []].
  - destruct (chunk_le nobind p d) as [b ok]. cbn in E. subst ok. exists b. reflexivity.
Qed.

(** *** The action *)

(** The buffer [g], number [i], holds [d]; chunks of the type [T] have the slots [ks]. *)
Record arena (s : st) (i : nat) (d : chunk) : Prop := MkArena {
  ar_name : dget (snames s) g = Some i;
  ar_buf : exists b, nth_error (bufs (sw s)) i = Some b /\ bkind b <> KLocation /\ bdata b = [d];
  ar_type : exists ct, dget (wreg (sw s)) T = Some ct /\ forall n, In n (ctfields ct) <-> In n ks;
  ar_reg : registry_ok (wreg (sw s));
  ar_flat : flat ks d }.

Lemma mention_simple m n w : simple_chunk ks g m -> (mentions m n w <-> In (n, Some w) (cslots m) /\ at_ m n <> TBlank).
Proof.
  intros Hm. unfold mentions. split.
  - intros (Hin & H). split; [exact Hin|]. destruct (at_simple _ _ _ Hm Hin) as (E & S). rewrite E. inversion S as [|W|c P W|x P W]; subst w; cbn in *; try discriminate.
    destruct H as [[A _]|[(y & A & _)|[A|A]]]; [elim A; reflexivity|discriminate|elim A; reflexivity|elim A; reflexivity].
  - intros (Hin & H). split; [exact Hin|]. destruct (at_simple _ _ _ Hm Hin) as (E & S). rewrite E in H. inversion S as [|W|c P W|x P W]; subst w; cbn in *.
    + elim H. reflexivity.
    + left. split; discriminate.
    + right. left. exists x. auto.
Qed.
Lemma unmentioned_simple m n : simple_chunk ks g m -> (unmentioned m n <-> at_ m n = TBlank).
Proof.
  intros Hm. unfold unmentioned. split.
  - intros H. destruct (at_ m n) eqn:E; [reflexivity| |].
    + destruct (dget (cslots m) n) as [[w|]|] eqn:D; unfold at_ in E; rewrite D in E; try discriminate.
      elim (H w). apply mention_simple; [exact Hm|]. split; [apply dget_In; exact D|]. unfold at_. rewrite D, E. discriminate.
    + destruct (dget (cslots m) n) as [[w|]|] eqn:D; unfold at_ in E; rewrite D in E; try discriminate.
      elim (H w). apply mention_simple; [exact Hm|]. split; [apply dget_In; exact D|]. unfold at_. rewrite D, E. discriminate.
  - intros E w M. apply mention_simple in M; [|exact Hm]. destruct M. contradiction.
Qed.

Section Act.
Variables (m d : chunk) (b : bindings).
Hypothesis (Hm : simple_chunk ks g m) (Hd : flat ks d).
Hypothesis Bn : NoDup (dkeys (bpos b)).
Hypothesis Bv : forall x v, dget (bpos b) x = Some v -> exists t, v = VStr t /\ datum t /\ reading b x = t.
Let bs := MkB (dset (bpos b) g (VChunk d)) (bneg b).

Lemma bs_NoDup : NoDup (dkeys (bpos bs)).
Proof. cbn. apply dset_NoDup. exact Bn. Qed.
Lemma bs_get n x : at_ m n = TVar x -> dget (bpos bs) x = dget (bpos b) x.
Proof. intros E. cbn. rewrite dget_dset. destruct (String.eqb_spec g x) as [->|_]; [elim (sc_names _ _ _ Hm n E)|reflexivity]. Qed.
Lemma bs_in n x v : at_ m n = TVar x -> In (x, v) (bpos bs) -> exists t, v = VStr t /\ datum t /\ reading b x = t.
Proof. intros E Hin. apply (dget_NoDup _ _ _ bs_NoDup) in Hin. rewrite (bs_get n x E) in Hin. exact (Bv _ _ Hin). Qed.
Lemma bs_marks n w : mentions m n w -> no_marks bs w /\ not_empty_bound bs w.
Proof.
  intros M. apply mention_simple in M; [|exact Hm]. destruct M as (Hin & _). destruct (at_simple _ _ _ Hm Hin) as (E & S).
  inversion S as [|W|c P W|x P W]; subst w; cbn in E.
  - split; [split; [reflexivity|intros x v; discriminate]|intros x v; discriminate].
  - destruct P as (_ & _ & P1 & P2). split; [split; [|intros x v; discriminate]|intros x v; discriminate]. cbn. apply orb_false_iff. split; apply String.eqb_neq; assumption.
  - split; [split; [reflexivity|]|].
    + intros y v [= <-] Hv. destruct (bs_in n x v E Hv) as (t & -> & (_ & D1 & D2) & _). cbn. apply orb_false_iff. split; apply String.eqb_neq; assumption.
    + intros y v [= <-] _ Hv B. destruct (bs_in n x v E Hv) as (t & -> & (D1 & _) & _). inversion B. congruence.
Qed.
Lemma bs_illegal n w : mentions m n w -> (forall x, at_ m n = TVar x -> dget (bpos b) x <> None) -> ~ illegal bs true w.
Proof.
  intros M H. apply mention_simple in M; [|exact Hm]. destruct M as (Hin & _). destruct (at_simple _ _ _ Hm Hin) as (E & S). intros I.
  inversion S as [|W|c P W|x P W]; subst w; cbn in E; inversion I as [y A1 A2 A3|y A1 A2|A1 A2|y v A1 A2 A3 A4]; cbn in *; try discriminate; try (destruct A1; fail); try (destruct A2 as [A2|A2]; apply A2; reflexivity).
  - injection A1 as <-. apply (H x E). rewrite <- (bs_get n x E). apply dget_None. exact A3.
  - elim A4. constructor.
Qed.
Lemma bs_resolves n w r : mentions m n w -> resolves_to bs w r -> exists t, r = MkVV (VStr t) None [] [] /\ datum t /\ eval (reading b) (at_ m n) = Some t.
Proof.
  intros M (R1 & R2 & R3 & R4 & _). apply mention_simple in M; [|exact Hm]. destruct M as (Hin & Nb). destruct (at_simple _ _ _ Hm Hin) as (E & S).
  assert (Ng : vnegvals r = []).
  { destruct (vnegvals r) as [|u l] eqn:En; [reflexivity|]. destruct (R4 u (or_introl eq_refl)) as [F|(y & F & _)]; inversion S; subst w; destruct F. }
  assert (Er : r = MkVV (vvals r) None [] []) by (destruct r; cbn in *; congruence). rewrite E in *.
  inversion S as [|W|c P W|x P W]; subst w; cbn in *; [elim Nb; reflexivity| |].
  - exists c. inversion R1 as [y v A1 A2 A3|A1 A2|A1 A2]; cbn in *; [discriminate| |inversion A2; subst; destruct P; congruence].
    rewrite Er. rewrite <- H. split; [reflexivity|]. split; [|reflexivity]. destruct P as (P1 & _ & P2 & P3). split; [|split]; assumption.
  - inversion R1 as [y v A1 A2 A3|A1 A2|A1 A2]; cbn in *; [|destruct A1; congruence|destruct A1; congruence].
    injection A1 as <-. destruct (bs_in n x (vvals r) E A3) as (t & Ev & D & R). exists t. rewrite Er, Ev, R. auto.
Qed.
End Act.

(** A rule with one test and one action. *)
Record one_buffer (ru : rule) (p m : chunk) : Prop := MkOB {
  ob_lhs : rlhs ru = [(String "=" g, CChunk p)];
  ob_rhs : rrhs ru = [(String "=" g, CChunk m)];
  ob_test : simple_chunk ks g p;
  ob_act : simple_chunk ks g m;
  ob_type : ctype m = T }.

Lemma modify_buf_inv w i bf o bs d w' : nth_error (bufs w) i = Some bf -> bkind bf <> KLocation -> bdata bf = [d] ->
  modify_buf w i bf o bs None = (w', Ok tt) ->
  exists mods r' c', resolve_slots bs true (removeunused o) = Ok mods /\ mk_chunk (wreg w) (ctype o) (dupdate (as_args d) mods) = Ok (r', c') /\
    w' = set_reg (set_buf w i (set_data bf [c'])) r'.
Proof.
  intros Eb Kb Ed. unfold modify_buf. rewrite Ed. destruct (resolve_slots _ _ _) as [mods|]; [|discriminate].
  destruct (mk_chunk _ _ _) as [[r' c']|] eqn:Ek; [|discriminate]. intros H. injection H as <-.
  exists mods, r', c'. split; [reflexivity|]. split; [exact Ek|]. destruct (bkind bf); try reflexivity; congruence.
Qed.

(** The effect of the rule: tests are passed, mentioned slots get new texts, the rest stays. *)
Definition moved (f : string -> string) (m d d' : chunk) : Prop :=
  forall n, In n ks -> text d' n = match eval f (at_ m n) with Some t => Some t | None => text d n end.

Theorem fires_moves O t s i d r ru p m s' : arena s i d -> dget (srules s) r = Some ru -> one_buffer ru p m ->
  fires O t s r s' ->
  exists f d', passes f p d /\ moved f m d d' /\ arena s' i d' /\ still s s' /\
    (forall j, j <> i -> nth_error (bufs (sw s')) j = nth_error (bufs (sw s)) j) /\ scur s' = noted s g p m.
Proof.
  intros [A1 (bf & A2 & A3 & A4) (ct & A5 & A6) A7 A8] Er [O1 O2 O3 O4 O5] F.
  destruct (fires_simple O t g p m s r ru i bf s' A1 A2 A3 Er O1 O2 F) as (d0 & rest & b & Ed & Le & Mo & St & Sc).
  rewrite A4 in Ed. injection Ed as <- <-.
  destruct (test_passes p d b O3 A8 Le) as (P & Bn & _ & Bv & _).
  destruct (modify_buf_inv _ _ _ _ _ _ _ A2 A3 A4 Mo) as (mods & r' & d' & R & M & W).
  set (bs := MkB (dset (bpos b) g (VChunk d)) (bneg b)) in *.
  assert (Nm : names_distinct m) by (unfold names_distinct; rewrite (sc_keys _ _ _ O4); exact Nd).
  assert (Mf : marks_free bs m) by (intros n w Hw; exact (proj1 (bs_marks m d b O4 Bn Bv n w Hw))).
  destruct (resolve_get bs true m mods Nm (bs_NoDup d b Bn) Mf R) as (R1 & R2 & R3).
  assert (G : forall n, dget (dupdate (as_args d) mods) n = match dget mods n with Some a => Some a | None => dget (as_args d) n end)
    by (intros n; apply dget_dupdate; exact R3).
  assert (Wr : forall n x, In (n, x) (dupdate (as_args d) mods) -> wf_raw x).
  { intros n x Hin. apply dupdate_In in Hin. destruct Hin as [Hin|Hin].
    - unfold as_args in Hin. apply in_map_iff in Hin. destruct Hin as ([n' [w|]] & E & Hin); cbn in E; injection E as <- <-; [|exact I].
      destruct A8 as (Wd & _ & _). destruct Wd as [c0 _ Wd]. exact (Wd n' w Hin).
    - apply dget_NoDup in Hin; [|exact R3]. pose proof (fun U => R2 n U) as U.
      destruct (at_ m n) as [|c|y] eqn:Ea.
      + rewrite (R2 n (proj2 (unmentioned_simple m n O4) Ea)) in Hin. discriminate.
      + unfold at_ in Ea. destruct (dget (cslots m) n) as [[w|]|] eqn:D; try discriminate.
        assert (Mn : mentions m n w) by (apply mention_simple; [exact O4|]; split; [apply dget_In; exact D|unfold at_; rewrite D, Ea; discriminate]).
        destruct (R1 n w Mn) as (u & Eu & Ru & _). rewrite Eu in Hin. injection Hin as <-. destruct (bs_resolves m d b O4 Bn Bv n w u Mn Ru) as (t0 & -> & _). cbn. split; [constructor|intros v []].
      + unfold at_ in Ea. destruct (dget (cslots m) n) as [[w|]|] eqn:D; try discriminate.
        assert (Mn : mentions m n w) by (apply mention_simple; [exact O4|]; split; [apply dget_In; exact D|unfold at_; rewrite D, Ea; discriminate]).
        destruct (R1 n w Mn) as (u & Eu & Ru & _). rewrite Eu in Hin. injection Hin as <-. destruct (bs_resolves m d b O4 Bn Bv n w u Mn Ru) as (t0 & -> & _). cbn. split; [constructor|intros v []]. }
  destruct (mk_chunk_wf _ _ _ _ _ A7 Wr M) as (Wd' & Rk).
  apply mk_chunk_spec in M. destruct M as (M1 & M2 & M3 & M4 & (ct' & M5 & M6) & _). rewrite O5 in *.
  (* the slots of the new chunk *)
  assert (K : forall n, In n (dkeys (cslots d')) <-> In n ks).
  { intros n. rewrite M4. split.
    - intros [Hin|(ct0 & E0 & Hin)]; [|rewrite A5 in E0; injection E0 as <-; apply A6; exact Hin].
      apply in_map_iff in Hin. destruct Hin as ([n' x] & E & Hin). cbn in E. subst n'. apply dupdate_In in Hin. destruct Hin as [Hin|Hin].
      + unfold as_args in Hin. apply in_map_iff in Hin. destruct Hin as ([n' s0] & E & Hin). cbn in E. injection E as <- _.
        apply (proj1 (proj2 A8)). apply in_map_iff. exists (n', s0). auto.
      + destruct (in_dec string_dec n ks) as [Hn|Hn]; [exact Hn|]. apply dget_NoDup in Hin; [|exact R3].
        rewrite (R2 n) in Hin; [discriminate|]. apply unmentioned_simple; [exact O4|]. apply (at_out _ _ O4 Hn).
    - intros Hn. right. exists ct. split; [exact A5|apply A6; exact Hn]. }
  assert (V : forall n, In n ks -> exists t0, datum t0 /\ dget (cslots d') n = Some (plain (VStr t0)) /\ Some t0 = match eval (reading b) (at_ m n) with Some t => Some t | None => text d n end).
  { intros n Hn. destruct (flat_text _ _ _ A8 Hn) as (t0 & D0 & T0 & _ & E0).
    assert (B : at_ m n = TBlank \/ exists w, mentions m n w).
    { destruct (at_in _ _ O4 Hn) as ([w|] & Hin & E & _); [|left; exact E]. destruct (at_ m n) eqn:Ea; [left; reflexivity|right; exists w|right; exists w];
        (apply mention_simple; [exact O4|]; split; [exact Hin|rewrite Ea; discriminate]). }
    destruct B as [B|(w & Mn)].
    - exists t0. split; [exact D0|]. split.
      + destruct (M2 n (RVV (MkVV (VStr t0) None [] []))) as (w & C & D).
        * rewrite G, (R2 n (proj2 (unmentioned_simple m n O4) B)), dget_as_args, E0. reflexivity.
        * cbn in C. injection C as <-. exact D.
      + rewrite B. cbn. congruence.
    - destruct (R1 n w Mn) as (u & Eu & Ru & _). destruct (bs_resolves m d b O4 Bn Bv n w u Mn Ru) as (t1 & -> & D1 & E1). exists t1. split; [exact D1|]. split.
      + destruct (M2 n (RVV (MkVV (VStr t1) None [] []))) as (w0 & C & D); [rewrite G, Eu; reflexivity|]. cbn in C. injection C as <-. exact D.
      + rewrite E1. reflexivity. }
  exists (reading b), d'. split; [exact P|]. split.
  { intros n Hn. destruct (V n Hn) as (t0 & _ & E0 & <-). unfold text. rewrite E0. reflexivity. }
  destruct St as (S1 & S2 & S3).
  split.
  { constructor.
    - congruence.
    - exists (set_data bf [d']). rewrite W. split; [|split; [exact A3|reflexivity]]. cbn. exact (upd_same _ _ _ _ A2).
    - exists ct'. rewrite W. cbn. split; [exact M5|]. intros n. rewrite M6. apply K.
    - rewrite W. exact Rk.
    - split; [exact Wd'|]. split; [intros n Hn; apply K; exact Hn|]. intros n Hn. destruct (V n Hn) as (t0 & D0 & E0 & _). eauto. }
  split; [split; [|split]; assumption|]. split; [|exact Sc].
  intros j Hj. rewrite W. cbn. apply upd_other. exact Hj.
Qed.

Theorem moves_fires O t s i d r ru p m f : arena s i d -> dget (srules s) r = Some ru -> one_buffer ru p m ->
  passes f p d -> (forall n x, at_ m n = TVar x -> exists n', at_ p n' = TVar x) ->
  exists s', fires O t s r s'.
Proof.
  intros [A1 (bf & A2 & A3 & A4) (ct & A5 & A6) A7 A8] Er [O1 O2 O3 O4 O5] P Sub.
  destruct (passes_test f p d O3 A8 P) as (b & Le). destruct (test_passes p d b O3 A8 Le) as (_ & Bn & Bx & Bv & _).
  destruct (modify_succeeds (sw s) i m (MkB (dset (bpos b) g (VChunk d)) (bneg b)) None d ct) as (w' & Hw).
  - exists bf. auto.
  - exact (bs_NoDup d b Bn).
  - intros n v M. destruct (bs_marks m d b O4 Bn Bv n v M). split; [assumption|]. split; [assumption|].
    apply (bs_illegal m d b O4 n v M). intros x E. destruct (Sub n x E) as (n' & E'). rewrite (Bx n' x E'). discriminate.
  - rewrite O5. exact A5.
  - intros n [Hn|Hn]; apply A6; [exact (proj1 (proj2 A8) n Hn)|rewrite <- (sc_keys _ _ _ O4); exact Hn].
  - cbn in Hw. rewrite A2 in Hw. destruct (modify_buf (sw s) i bf m (MkB (dset (bpos b) g (VChunk d)) (bneg b)) None) as [w1 [[]|e]] eqn:Em; [|discriminate].
    exact (fires_simple_if O t g p m s r ru i bf d [] b w1 A1 A2 A3 Er O1 O2 A4 Le Em).
Qed.
End Fire.
