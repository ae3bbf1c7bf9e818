(** What is put into procs: nothing by the processes of buffers; at most one element for each buffer
    by a firing rule that makes at most one request to each buffer. *)
From Coq Require Import Permutation.
From Verif Require Import Base BaseFacts Chunks DecMem Buffers BufferFacts Productions ProdSpec ProdFacts ActFacts HarvestFacts CycleFacts LearnFacts Sim SimSpec LiftFacts Compile CompileSpec CompileFacts CompileSame FrameFacts SafeSpec.
Local Open Scope string_scope.
Local Open Scope list_scope.
Local Open Scope nat_scope.

(** ** Processes of buffers *)

Definition tame (s s' : st) : Prop := rely s s' /\ sprocs s' = sprocs s /\ snext s' = snext s.
Lemma tame_refl s : tame s s. Proof. split; [apply rely_refl|split; reflexivity]. Qed.
Lemma tame_trans s1 s2 s3 : tame s1 s2 -> tame s2 s3 -> tame s1 s3.
Proof.
  intros [(R1 & R2 & R3 & R4 & R5 & R6) [A A']] [(Q1 & Q2 & Q3 & Q4 & Q5 & Q6) [B B']]. split; [repeat split; congruence|split; congruence].
Qed.
Ltac tame_mod i s := destruct (nth_error (smods s) i); [repeat split|apply tame_refl].
Lemma tame_attrs i l s : tame s (set_attrs i l s). Proof. unfold set_attrs. tame_mod i s. Qed.
Lemma tame_state i v s : tame s (set_state i v s). Proof. apply tame_attrs. Qed.
Lemma tame_focus i p s : tame s (set_focus i p s). Proof. unfold set_focus. tame_mod i s. Qed.
Lemma tame_attend i p s : tame s (set_attend i p s). Proof. unfold set_attend. tame_mod i s. Qed.
Lemma tame_mvt i p s : tame s (set_mvt i p s). Proof. unfold set_mvt. tame_mod i s. Qed.
Lemma tame_mlast i p s : tame s (set_mlast i p s). Proof. unfold set_mlast. tame_mod i s. Qed.
Lemma tame_call {A} (f : st -> world * res A) k : (forall a, free tame (k a)) -> free tame (gcall f k).
Proof. intros K s. cbn [gcall moves]. destruct (f s) as [w [a|e]]; cbn [moves]; (split; [repeat split|]); [apply K|exact I]. Qed.
Lemma tame_record f k : free tame k -> free tame (g_record f k).
Proof. intros K. apply free_get. intros s. destruct (f s); [|apply free_raise]. apply free_act; [|exact K]. intros s'. repeat split. Qed.
Ltac tame_step := match goal with
  | |- free _ GRet => apply free_ret
  | |- free _ (GRaise _) => apply free_raise
  | |- free _ (GYield _ _) => apply free_yield
  | |- free _ (GCont _) => apply free_cont
  | |- free _ (GNote _ _) => apply free_note
  | |- free _ (gcall _ _) => apply tame_call; intros ?
  | |- free _ (g_record _ _) => apply tame_record
  | |- free _ (gseq _ _) => apply free_gseq
  | |- free _ (GGet _) => apply free_get; intros ?
  | |- free _ (GAct (set_state _ _) _) => apply free_act; [intros ?; apply tame_state|]
  | |- free _ (GAct (set_attrs _ _) _) => apply free_act; [intros ?; apply tame_attrs|]
  | |- free _ (GAct (set_focus _ _) _) => apply free_act; [intros ?; apply tame_focus|]
  | |- free _ (GAct (set_attend _ _) _) => apply free_act; [intros ?; apply tame_attend|]
  | |- free _ (GAct (set_mvt _ _) _) => apply free_act; [intros ?; apply tame_mvt|]
  | |- free _ (GAct (set_mlast _ _) _) => apply free_act; [intros ?; apply tame_mlast|]
  | |- free _ (GAct (fun s => set_mlast _ _ s) _) => apply free_act; [intros ?; apply tame_mlast|]
  | |- free _ (GAct _ _) => apply free_act; [intros ?; repeat split|]
  | |- free _ (match ?x with _ => _ end) => destruct x
  | |- free _ (let _ := _ in _) => cbv zeta
  end.
Ltac tame := repeat tame_step.
Section Tame.
Variable O : oracle.
Lemma tame_clear name i opt t fr : free tame (g_clear name i opt t fr). Proof. unfold g_clear. tame. Qed.
Lemma tame_encode name i ch t x site : free tame (g_encode name i ch t x site). Proof. unfold g_encode. repeat first [apply tame_clear|progress tame]. Qed.
Lemma tame_viscont name i ch bs t times site : free tame (g_viscont O name i ch bs t times site).
Proof. unfold g_viscont. destruct times as [[enc prep] exe]. repeat first [apply tame_encode|progress tame]. Qed.
Lemma tame_shift name i c bs t : free tame (g_shift O name i c bs t).
Proof. unfold g_shift. repeat first [apply tame_encode|apply tame_viscont|progress tame]. Qed.
Lemma tame_visual name i c bs t : free tame (g_visual O name i c bs t).
Proof.
  unfold g_visual. destruct c; try apply free_raise. destruct (resolve_slots bs true _) as [args|]; [|apply free_raise].
  destruct (dget args "cmd") as [[]|]; try apply free_raise. pose proof (tame_shift name i (CChunk c) bs t) as F.
  assert (K : free tame (GAct (set_attend i false) (GAct (set_state i "free") (GYield (ev t name (WText "VISUAL STOPPED FROM AUTOMATIC BUFFERING AT ITS CURRENT FOCUS")) GRet))))
    by (apply free_act; [intros s; apply tame_attend|apply free_act; [intros s; apply tame_state|apply free_yield, free_ret]]).
  destruct (vvals w) as [| |x|]; try apply free_raise; try apply free_ret.
  repeat match goal with |- context[match ?z with _ => _ end] => is_var z; destruct z; try exact F; try exact K; try apply free_raise; try apply free_ret end.
Qed.
Lemma tame_motor name i c bs t : free tame (g_motor name i c bs t).
Proof. unfold g_motor, g_motorcont. tame. all: repeat match goal with |- tame _ _ => idtac | |- context[match ?x with _ => _ end] => destruct x end; reflexivity. Qed.
Lemma tame_start m name i c bs t : free tame (start O m name i c bs t).
Proof.
  destruct m; cbn [start]; unfold g_extra, g_modify, g_execute, g_overwrite, g_modreq, g_request, g_setgoal, g_retrieve, g_find;
    repeat first [apply tame_clear|apply tame_visual|apply tame_motor|progress tame].
  destruct c; tame.
Qed.
Lemma tame_proc p : free tame (proc_gen O p).
Proof.
  destruct p as [|n name m i c bs t|n name [|] i l t]; cbn [proc_gen]; [apply free_ret|apply tame_start| |]; unfold g_autobuffer, g_autosearch; tame.
Qed.
End Tame.

(** ** Names in procs *)

Definition names_of (l : list proc) : list string :=
  flat_map (fun p => match p with PProc => [] | PReq _ n _ _ _ _ _ => [n] | PAuto _ n _ _ _ _ => [n] end) l.
Lemma names_app l l' : names_of (l ++ l') = names_of l ++ names_of l'. Proof. apply flat_map_app. Qed.
Lemma remove_names l : forall l', remove_procedural l = Some l' -> names_of l' = names_of l.
Proof.
  induction l as [|p l IH]; intros l' H; cbn [remove_procedural] in H; [discriminate|].
  destruct p; [injection H as <-; reflexivity| |]; (destruct (remove_procedural l) as [l2|]; [|discriminate]; injection H as <-; unfold names_of in *; cbn [flat_map]; rewrite (IH l2 eq_refl); reflexivity).
Qed.
Lemma remove_none l : remove_procedural l = None -> ~ In PProc l.
Proof.
  induction l as [|p l IH]; cbn [remove_procedural In]; [intros _ []|]. destruct p; [discriminate| |]; (destruct (remove_procedural l); [discriminate|]; intros _ [E|E]; [discriminate|exact (IH eq_refl E)]).
Qed.
Lemma harvest_names t ns : forall s, names_of (sprocs (harvest ns t s)) = names_of (sprocs s) ++ filter (fun n => match dget (snames s) n with Some _ => true | None => false end) ns.
Proof.
  induction ns as [|n ns IH]; intros s; cbn [harvest filter]; [rewrite app_nil_r; reflexivity|]. rewrite IH. destruct (dget (snames s) n) as [i|]; [|reflexivity].
  cbn [sprocs add_proc set_procs snames]. rewrite names_app. cbn. rewrite <- app_assoc. reflexivity.
Qed.
Lemma harvest_proc t ns : forall s, In PProc (sprocs s) -> In PProc (sprocs (harvest ns t s)).
Proof.
  induction ns as [|n ns IH]; intros s H; cbn [harvest]; [exact H|]. apply IH. destruct (dget (snames s) n); [|exact H]. apply in_or_app. left. exact H.
Qed.

(** ** Firing rules *)

Record mannered (s : st) : Prop := MkMannered {
  m_rules : one_request s;
  m_vars : NoDup (dkeys (bpos (svars s)));
  m_names : plain_names s }.

(** From [s] on, [s'] has more elements, at most one for each name; [b]: names for which there may be one. *)
Definition grown (b b' : string -> Prop) (s s' : st) : Prop :=
  exists new, names_of (sprocs s') = names_of (sprocs s) ++ new /\ NoDup new /\ (forall n, In n new -> b n) /\ (forall n, b' n -> b n /\ ~ In n new).
Lemma grown_same (b : string -> Prop) s s' : names_of (sprocs s') = names_of (sprocs s) -> grown b b s s'.
Proof. intros H. exists []. rewrite H, app_nil_r. repeat split; auto; [constructor|intros n []]. Qed.
Lemma grown_trans b1 b2 b3 s1 s2 s3 : grown b1 b2 s1 s2 -> grown b2 b3 s2 s3 -> grown b1 b3 s1 s3.
Proof.
  intros (l & E & N & A & B) (l' & E' & N' & A' & B'). exists (l ++ l'). rewrite E', E, app_assoc. split; [reflexivity|]. split.
  { assert (D : forall n, In n l' -> ~ In n l) by (intros n H; apply B, A', H). clear -N N' D. induction N as [|x l H N IH]; [exact N'|]. cbn. constructor.
    - intros K. apply in_app_or in K. destruct K as [K|K]; [exact (H K)|]. apply (D x K). left. reflexivity.
    - apply IH. intros n H1 H2. apply (D n H1). right. exact H2. }
  split.
  - intros n H. apply in_app_or in H. destruct H as [H|H]; [exact (A n H)|apply B, A', H].
  - intros n H. destruct (B' n H) as [H1 H2]. destruct (B n H1) as [H3 H4]. split; [exact H3|]. intros K. apply in_app_or in K. tauto.
Qed.

(** From [s] on, [g] adds at most one element for each name of [b]; it does not end without the element of the
    rules itself ([c]: it is there) unless it has added nothing. *)
Definition atend (c : bool) (b : string -> Prop) (s : st) : Prop := c = true \/ forall n, b n.
Fixpoint leads (F : bool -> (string -> Prop) -> st -> Prop) (g : gen) (c : bool) (b : string -> Prop) (s : st) {struct g} : Prop :=
  match g with
  | GRet => F c b s
  | GRaise _ => True
  | GYield _ k => forall s', mannered s' -> (c = true -> In PProc (sprocs s')) -> leads F k c b s'
  | GCont _ => False
  | GNote _ k => leads F k c b s
  | GAct f k => exists c' b', (c' = true -> In PProc (sprocs (f s))) /\ grown b b' s (f s) /\ leads F k c' b' (f s)
  | GGet k => leads F (k s) c b s
  end.
Definition modest := leads atend.
Lemma leads_seq F g k : forall c b s, leads (leads F k) g c b s -> leads F (gseq g k) c b s.
Proof.
  induction g as [|e|e g IH|g IH|n g IH|f g IH|g IH]; intros c b s H; cbn [gseq leads] in *; auto.
  destruct H as (c' & b' & H1 & H2 & H3). exists c', b'. auto.
Qed.
Lemma resume_modest g : forall c b s s' ns o, modest g c b s -> (c = true -> In PProc (sprocs s)) -> resume g s = (s', ns, o) ->
  exists c' b', (c' = true -> In PProc (sprocs s')) /\ grown b b' s s' /\
    match o with
    | OYield _ k => forall s2, mannered s2 -> (c' = true -> In PProc (sprocs s2)) -> modest k c' b' s2
    | ODone => c' = true \/ forall n, b' n
    | OCont _ => False
    | ORaise _ => True
    end.
Proof.
  induction g as [|e|e g IH|g IH|n g IH|f g IH|g IH]; intros c b s s' ns o H C E; unfold modest in *; cbn [resume leads] in *.
  - injection E as <- <- <-. exists c, b. split; [exact C|]. split; [apply grown_same; reflexivity|exact H].
  - injection E as <- <- <-. exists c, b. split; [exact C|]. split; [apply grown_same; reflexivity|exact I].
  - injection E as <- <- <-. exists c, b. split; [exact C|]. split; [apply grown_same; reflexivity|exact H].
  - contradiction.
  - destruct (resume g s) as [[s1 ns1] o1] eqn:R. injection E as <- <- <-. exact (IH _ _ _ _ _ _ H C R).
  - destruct H as (c1 & b1 & C1 & G1 & H1). destruct (IH _ _ _ _ _ _ H1 C1 E) as (c2 & b2 & C2 & G2 & H2).
    exists c2, b2. split; [exact C2|]. split; [exact (grown_trans _ _ _ _ _ _ G1 G2)|exact H2].
  - exact (IH _ _ _ _ _ _ _ H C E).
Qed.

(** Generators that do not end early. *)
Fixpoint whole (g : gen) : Prop :=
  match g with
  | GRet => True
  | GRaise _ => True
  | GYield _ k => whole k
  | GCont _ => False
  | GNote _ k => whole k
  | GAct f k => (forall s, tame s (f s)) /\ whole k
  | GGet k => forall s, whole (k s)
  end.
Lemma whole_call {A} (f : st -> world * res A) k : (forall a, whole (k a)) -> whole (gcall f k).
Proof. intros K. cbn [gcall whole]. intros s. destruct (f s) as [w [a|e]]; cbn [whole]; (split; [repeat split|]); [apply K|exact I]. Qed.
Lemma whole_start O m name i c bs t : interruptible m = false -> whole (start O m name i c bs t).
Proof.
  assert (W : forall v e, whole (GAct (set_state i v) (GYield e GRet))) by (intros v e; split; [intros s; apply tame_state|exact I]).
  destruct m; intros H; try discriminate H; cbn [start].
  - unfold g_extra. split; [intros s; apply tame_state|]. destruct c; try apply W. split; [intros s; repeat split|apply W].
  - unfold g_modify. split; [intros s; apply tame_state|]. intros s. destruct (record_modify name c s); [|exact I]. split; [intros s'; repeat split|]. apply whole_call. intros _. apply W.
  - unfold g_execute. split; [intros s; apply tame_state|]. apply whole_call. intros _. apply W.
  - unfold g_clear. split; [intros s; apply tame_state|]. apply whole_call. intros _. cbn [whole]. split; [intros s; apply tame_state|exact I].
  - unfold g_overwrite. split; [intros s; apply tame_state|]. intros s. cbn [whole]. intros s2. destruct (record_create name c s2); [|exact I]. split; [intros s'; repeat split|]. apply whole_call. intros _. apply W.
Qed.
Lemma tame_names s s' : tame s s' -> plain_names s -> plain_names s'.
Proof. intros [(A & B & _) _] H. unfold plain_names. rewrite A, B. exact H. Qed.
Lemma leads_whole (F : bool -> (string -> Prop) -> st -> Prop) g b : whole g -> forall s, plain_names s -> In PProc (sprocs s) ->
  (forall s', plain_names s' -> In PProc (sprocs s') -> F true b s') -> leads F g true b s.
Proof.
  induction g as [|e|e g IH|g IH|n g IH|f g IH|g IH]; intros W s N C K; cbn [leads whole] in *; auto.
  - intros s' M C'. apply IH; auto. apply m_names. exact M.
  - destruct W as [W1 W2]. destruct (W1 s) as [R [Q _]]. exists true, b. split; [intros _; rewrite Q; exact C|]. split; [apply grown_same; rewrite Q; reflexivity|].
    apply IH; auto; [eapply tame_names; [apply W1|exact N]|rewrite Q; exact C].
Qed.

(** *** Actions *)

Definition asked (l : list (string * content)) : list string := asked_names l.
Lemma asked_cons code n c l : asked ((String code n, c) :: l) = (if Ascii.eqb code "+" || Ascii.eqb code "*" then [n] else [])%bool ++ asked l.
Proof.
  unfold asked, asked_names. cbn [dkeys map flat_map fst]. f_equal.
  destruct (Ascii.eqb_spec code "+") as [->|N1]; [reflexivity|]. destruct (Ascii.eqb_spec code "*") as [->|N2]; [reflexivity|].
  destruct code as [[|] [|] [|] [|] [|] [|] [|] [|]]; try reflexivity; exfalso; first [apply N1; reflexivity|apply N2; reflexivity].
Qed.
Lemma sign_asks code m : rhs_meth code = Some m -> (Ascii.eqb code "+" || Ascii.eqb code "*")%bool = interruptible m.
Proof.
  unfold rhs_meth. intros H.
  repeat match type of H with (if Ascii.eqb code ?x then _ else _) = _ => destruct (Ascii.eqb_spec code x) as [->|?]; [injection H as <-; reflexivity|] end; discriminate H.
Qed.
Lemma actions_leads O t (F : bool -> (string -> Prop) -> st -> Prop) l : forall temp (b : string -> Prop) s, plain_names s -> In PProc (sprocs s) -> NoDup (asked l) -> (forall n, In n (asked l) -> b n) ->
  NoDup (dkeys (bpos temp)) -> (forall n, In n (dkeys (bpos temp)) -> b n) -> (forall b' s', plain_names s' -> In PProc (sprocs s') -> F true b' s') ->
  leads F (actions O t temp l) true b s.
Proof.
  induction l as [|[key c] l IH]; intros temp b s N C A B V W HK; cbn [actions leads].
  - destruct (qstrict (sp s)) eqn:Q; cbn [leads]; [|apply HK; assumption].
    assert (Fl : filter (fun n => match dget (snames s) n with Some _ => true | None => false end) (var_keys temp) =
                filter (fun n => match dget (snames s) n with Some _ => true | None => false end) (dkeys (bpos temp))).
    { unfold var_keys. rewrite filter_app. rewrite (filter_none _ (map _ _)); [apply app_nil_r|]. intros x H. apply in_map_iff in H. destruct H as (y & <- & _). rewrite (N Q). reflexivity. }
    exists true, (fun _ => False). split; [intros _; apply harvest_proc; exact C|]. split.
    + eexists. split; [apply harvest_names|]. rewrite Fl. split; [apply NoDup_filter; exact V|]. split; [|intros n []].
      intros n H. apply filter_In in H. apply W. apply H.
    + apply HK; [|apply harvest_proc; exact C]. destruct (rely_harvest (var_keys temp) t s) as (R1 & R2 & _). unfold plain_names. rewrite R1, R2. exact N.
  - destruct key as [|code name]; [exact I|]. destruct (rhs_meth code) as [m|] eqn:Em; [|exact I]. rewrite asked_cons, (sign_asks _ _ Em) in A, B.
    cbn [leads]. destruct (dget (snames s) name) as [i|]; [|exact I]. cbn [leads].
    pose proof (tame_state i "busy" s) as T. destruct T as [R [Q _]].
    assert (N1 : plain_names (set_state i "busy" s)) by (eapply tame_names; [apply tame_state|exact N]).
    exists true, b. split; [intros _; rewrite Q; exact C|]. split; [apply grown_same; rewrite Q; reflexivity|].
    assert (V' : NoDup (dkeys (bpos (MkB (ddel (bpos temp) name) (bneg temp))))) by (apply ddel_NoDup; exact V).
    destruct (interruptible m) eqn:Ei.
    + cbn [leads]. cbn [app] in A, B. apply NoDup_cons_iff in A. destruct A as [A1 A2].
      exists true, (fun n => b n /\ n <> name). split; [intros _; apply in_or_app; left; rewrite Q; exact C|]. split.
      { exists [name]. split; [cbn [sprocs add_proc set_procs]; rewrite names_app; reflexivity|]. split; [constructor; [intros []|constructor]|]. split.
        - intros n [<-|[]]. apply B. left. reflexivity.
        - intros n [H1 H2]. split; [exact H1|]. intros [H|[]]. congruence. }
      apply IH; auto.
      * apply in_or_app. left. rewrite Q. exact C.
      * intros n H. split; [apply B; right; exact H|]. intros ->. exact (A1 H).
      * intros n H. cbn [bpos] in H. apply ddel_keys in H. destruct H as [H1 H2]. split; [apply W; exact H1|exact H2].
    + apply leads_seq. apply leads_whole; [apply whole_start; exact Ei|exact N1|rewrite Q; exact C|]. intros s' N' C'. apply IH; auto.
      intros n H. cbn [bpos] in H. apply ddel_keys in H. apply W. apply H.
Qed.

Lemma asked_perm l l' : Permutation l l' -> Permutation (asked l) (asked l').
Proof.
  unfold asked, asked_names. intros P. apply (Permutation_map fst) in P. unfold dkeys. revert P. generalize (map fst l) (map fst l'). intros k k' P.
  induction P as [|x a a' P IH|x y a|a1 a2 a3 P1 IH1 P2 IH2]; cbn [flat_map].
  - constructor.
  - apply Permutation_app_head. exact IH.
  - rewrite !app_assoc. apply Permutation_app_tail. apply Permutation_app_comm.
  - eapply Permutation_trans; eassumption.
Qed.
Lemma fire_modest O r ru t (b : string -> Prop) s : NoDup (asked (rrhs ru)) -> (forall n, b n) -> In PProc (sprocs s) -> modest (g_fire O r ru t) true b s.
Proof.
  intros A B C. unfold modest, g_fire, g_update. cbn [leads]. exists true, b. split; [intros _; exact C|]. split; [apply grown_same; reflexivity|].
  intros s' M C'. specialize (C' eq_refl). apply leads_seq. cbn [leads]. destruct (ordered_rhs (rrhs ru)) as [l|] eqn:E; [|exact I].
  destruct (ordered_rhs_staged _ _ E) as [_ Pm]. apply actions_leads; auto.
  - apply m_names. exact M.
  - eapply Permutation_NoDup; [apply Permutation_sym, asked_perm, Pm|exact A].
  - apply m_vars. exact M.
  - intros b' s2 _ C2. exists true, b'. set (s3 := match slast s2 with Some _ => _ | None => _ end).
    assert (Q : sprocs s3 = sprocs s2) by (unfold s3; destruct (slast s2) as [l0|]; [destruct (_ && _)%bool|]; reflexivity).
    split; [intros _; rewrite Q; exact C2|]. split; [apply grown_same; rewrite Q; reflexivity|]. left. reflexivity.
Qed.
Lemma try_modest O r t (b : string -> Prop) s : mannered s -> (forall n, b n) -> In PProc (sprocs s) -> modest (g_try O r t) true b s.
Proof.
  intros M B C. unfold modest, g_try. cbn [leads]. destruct (dget (srules s) r) as [ru|] eqn:Er; [|exact I].
  destruct (lhs_test s (rlhs ru) (svars s)) as [[bs|]|]; [| |exact I].
  2:{ cbn [leads]. intros s' _ _. left. reflexivity. }
  cbv zeta. destruct (learned (set_vars bs s) ru t) as [s2|] eqn:L; [|exact I]. destruct (learned_no_new _ _ _ _ L) as (_ & _ & Q & _). cbn [sprocs set_vars] in Q.
  pose proof (m_rules s M r ru Er) as A.
  assert (F : forall s3, sprocs s3 = sprocs s -> leads atend (g_fire O r ru t) true b s3) by (intros s3 E; apply fire_modest; auto; rewrite E; exact C).
  destruct (compile_now O s2) as [[[[n again] rs]|]|e]; cbn [leads]; exists true, b.
  - split; [intros _; cbn; rewrite Q; exact C|]. split; [apply grown_same; cbn; rewrite Q; reflexivity|]. intros s' M' C'. apply fire_modest; auto.
  - split; [intros _; cbn; rewrite Q; exact C|]. split; [apply grown_same; cbn; rewrite Q; reflexivity|]. apply F. exact Q.
  - split; [intros _; rewrite Q; exact C|]. split; [apply grown_same; rewrite Q; reflexivity|exact I].
Qed.
Theorem procedural_modest O t s : modest (procedural O t) false (fun _ => True) s.
Proof.
  unfold modest, procedural. cbn [leads]. exists true, (fun _ => True). split; [intros _; cbn; apply in_or_app; right; left; reflexivity|].
  split; [apply grown_same; cbn; rewrite names_app, app_nil_r; reflexivity|]. intros s1 M1 C1. specialize (C1 eq_refl).
  exists true, (fun _ => True). split; [intros _; exact C1|]. split; [apply grown_same; reflexivity|].
  set (s2 := set_extra [] (set_cur (scur s1) (scur s1) s1)). assert (Q2 : sprocs s2 = sprocs s1) by reflexivity. clearbody s2. rewrite <- Q2 in C1.
  destruct (select O s2) as [[r|]|]; [| |exact I]; cbn [leads].
  - exists true, (fun _ => True). set (s3 := use_rule r t (set_rule (Some r) s2)).
    assert (Q3 : sprocs s3 = sprocs s2) by (unfold s3, use_rule; repeat match goal with |- context[match ?z with _ => _ end] => destruct z end; reflexivity).
    split; [intros _; rewrite Q3; exact C1|]. split; [apply grown_same; rewrite Q3; reflexivity|]. intros s4 M4 C4 s5 M5 C5. apply try_modest; auto.
  - exists true, (fun _ => True). split; [intros _; exact C1|]. split; [apply grown_same; reflexivity|].
    destruct (remove_procedural (sprocs s2)) as [l|] eqn:R; cbn [leads]; [|exact I].
    exists false, (fun _ => True). split; [discriminate|]. split; [apply grown_same; cbn; exact (remove_names _ _ R)|]. intros s4 _ _. right. auto.
Qed.

(** ** The rules stay as they should be *)

Definition blank (s s' : st) : Prop := sp s' = sp s /\ snames s' = snames s /\ srules s' = srules s /\ svars s' = svars s.
Lemma mannered_blank s s' : blank s s' -> mannered s -> mannered s'.
Proof. intros (A & B & D & E) [H1 H2 H3]. split; unfold one_request, plain_names; rewrite ?A, ?B, ?D, ?E; assumption. Qed.
Lemma mannered_rely s s' : rely s s' -> mannered s -> mannered s'.
Proof. intros (A & B & D & E & _). apply mannered_blank. repeat split; assumption. Qed.
Lemma tame_fine g : free tame g -> fine mannered g.
Proof. apply free_fine. intros s s' [R _]. apply mannered_rely. exact R. Qed.
Lemma mannered_actions O t l : forall temp, fine mannered (actions O t temp l).
Proof.
  induction l as [|[key c] l IH]; intros temp; cbn [actions].
  - apply fine_read. intros s Hs. destruct (qstrict (sp s)); [|exact I]. split; [|exact I]. revert Hs. apply mannered_rely, rely_harvest.
  - destruct key as [|code name]; [apply fine_raise|]. destruct (rhs_meth code) as [m|]; [|apply fine_raise]. cbv zeta. apply fine_get. intros s.
    destruct (dget (snames s) name) as [i|]; [|apply fine_raise]. apply fine_note. apply fine_act; [intros s'; apply mannered_rely; apply tame_state|].
    destruct (interruptible m); [apply fine_act; [intros s'; apply mannered_blank; repeat split|apply IH]|apply fine_gseq; [apply tame_fine, tame_start|apply IH]].
Qed.
Lemma mannered_fire O r ru t : fine mannered (g_fire O r ru t).
Proof.
  unfold g_fire, g_update. apply fine_act; [intros s; apply mannered_blank; repeat split|]. apply fine_yield. apply fine_gseq.
  - apply fine_get. intros s. destruct (ordered_rhs (rrhs ru)); [apply mannered_actions|apply fine_raise].
  - apply fine_act; [|apply fine_ret]. intros s. apply mannered_blank. destruct (slast s) as [l|]; [destruct (_ && _)%bool|]; repeat split.
Qed.

(** Compiling keeps the requests apart: an action of the first rule is dropped if there is one on the same buffer. *)
Lemma asked_In n l : In n (asked l) -> exists code, In (String code n) (dkeys l).
Proof.
  unfold asked, asked_names. rewrite in_flat_map. intros (k & Hk & H). destruct k as [|code m]; [destruct H|].
  assert (E : n = m). { destruct code as [[|] [|] [|] [|] [|] [|] [|] [|]]; cbn in H; try contradiction; destruct H as [H|[]]; auto. }
  subst m. exists code. exact Hk.
Qed.
Lemma keep_asked ret r1 : forall acc rhs, keep_actions ret r1 acc = Ok rhs -> NoDup (asked acc) -> NoDup (asked rhs).
Proof.
  induction r1 as [|[key c1] r1 IH]; intros acc rhs H A; cbn [keep_actions] in H; [injection H as <-; exact A|].
  destruct key as [|code buff]; [discriminate|]. destruct (existsb (same_buffer buff) (dkeys acc)) eqn:Ex; [exact (IH _ _ H A)|].
  destruct (is_buffer ret buff); [exact (IH _ _ H A)|].
  assert (G : forall c, NoDup (asked (dset acc (String code buff) c))).
  { intros c. assert (Nk : ~ In (String code buff) (dkeys acc)).
    { intros K. apply (not_true_iff_false _) in Ex. apply Ex. apply existsb_exists. exists (String code buff). split; [exact K|]. cbn. apply String.eqb_refl. }
    assert (E : dset acc (String code buff) c = acc ++ [(String code buff, c)]).
    { clear -Nk. induction acc as [|[k v] acc IH]; cbn [dset app]; [reflexivity|]. cbn [dkeys map fst In] in Nk. destruct (String.eqb k (String code buff)) eqn:E.
      - apply String.eqb_eq in E. exfalso. apply Nk. left. exact E.
      - f_equal. apply IH. intros K. apply Nk. right. exact K. }
    rewrite E. eapply Permutation_NoDup; [apply asked_perm, Permutation_cons_append|]. rewrite asked_cons. destruct (_ || _)%bool; [|exact A]. cbn [app]. constructor; [|exact A].
    intros K. apply asked_In in K. destruct K as (code' & K). apply (not_true_iff_false _) in Ex. apply Ex. apply existsb_exists. exists (String code' buff).
    split; [exact K|]. cbn. apply String.eqb_refl. }
  destruct (rhs_meth code) as [[]|]; try discriminate H; try exact (IH _ _ H (G c1)); (apply rbind_Ok in H; destruct H as (ch & _ & H); exact (IH _ _ H (G _))).
Qed.

Lemma combine_asked tie s n2 ru1 ru2 vals l r : combine tie s n2 ru1 ru2 vals = Ok (Some (Ok l, Ok r)) -> NoDup (asked (rrhs ru2)) -> NoDup (asked r).
Proof.
  intros H A. apply combine_inv in H. destruct H as (_ & retr & vs & lhs2 & vals1 & mv & vals2 & l1 & r1 & l2 & r2 & r2' & Hs & H2 & H3 & _ & _ & _ & H4 & _ & H5 & _ & HR).
  unfold collapse_rhs in HR. cbn [rbind] in HR. apply rbind_Ok in HR. destruct HR as (acc & Ha & HR).
  assert (Ka : dkeys acc = dkeys (rrhs ru2)).
  { rewrite (rmap_keys _ _ _ (merge_action_key vals2) Ha), (with_parts_keys _ _ _ H5). exact (with_parts_keys _ _ _ H3). }
  apply (keep_asked _ _ _ _ HR). unfold asked, asked_names in *. rewrite Ka. exact A.
Qed.
Lemma mannered_rules s s' : no_new (srules s) (srules s') -> sp s' = sp s -> snames s' = snames s -> svars s' = svars s -> mannered s -> mannered s'.
Proof.
  intros F A B D [H1 H2 H3]. split; unfold plain_names; rewrite ?A, ?B, ?D; try assumption. intros r ru E. destruct (F r ru E) as (ru' & E' & _ & ->). exact (H1 r ru' E').
Qed.
Section Mannered.
Variables (O : oracle) (tie : string -> string -> bool).
Hypothesis CO : compiles_with O tie.
Lemma mannered_try r t : fine mannered (g_try O r t).
Proof.
  unfold g_try. apply fine_read. intros s Hs. destruct (dget (srules s) r) as [ru|] eqn:Er; [|exact I].
  destruct (lhs_test s (rlhs ru) (svars s)) as [[b|]|] eqn:T; [|intros s' Hs'; exact I|exact I]. cbv zeta.
  assert (H1 : mannered (set_vars b s)).
  { destruct Hs as [I1 I2 I3]. split; try assumption. cbn [svars set_vars]. apply lhs_test_iff, conds_bound in T. destruct T as (T & _). exact (T I2). }
  destruct (learned (set_vars b s) ru t) as [s2|] eqn:L; [|exact I].
  assert (H2 : mannered s2).
  { destruct (learned_keep _ _ _ _ L) as (L1 & L2 & L3 & L4 & L5 & L6). destruct (learned_no_new _ _ _ _ L) as (M1 & M2 & M3 & M4).
    revert H1. apply mannered_rules; assumption. }
  destruct (compile_now O s2) as [[[[n again] rs]|]|e] eqn:C; cbn [stays].
  - assert (H3 : mannered (set_last (slast s2) None (set_order (sorder s2 ++ [n])%list (set_rules rs s2)))).
    { destruct (compile_now_inv _ _ _ _ CO C) as (r1 & r2 & vals & _ & K). destruct H2 as [I1 I2 I3]. split; try assumption.
      intros m rm E. cbn [srules set_last set_order set_rules] in E. pose proof (compile_exact _ _ _ _ _ _ _ _ K) as (_ & ru1 & ru2 & l & rr & G1 & G2 & Cm & D).
      destruct D as [(-> & D1 & ->)|(-> & old & G & _ & _ & ->)].
      - destruct (string_dec m n) as [->|Nm].
        + rewrite dget_dset_eq in E. injection E as <-. cbn [rrhs]. exact (combine_asked _ _ _ _ _ _ _ _ Cm (I1 r2 ru2 G2)).
        + rewrite dget_dset_neq in E by congruence. exact (I1 m rm E).
      - destruct (qlearn (sp s2)); [|exact (I1 m rm E)]. destruct (no_new_util _ _ _ _ G m rm E) as (o' & E' & _ & ->). exact (I1 m o' E'). }
    split; [exact H3|]. intros s' Hs'. apply mannered_fire. exact Hs'.
  - assert (H3 : mannered (set_last (slast s2) None s2)) by (revert H2; apply mannered_blank; repeat split). split; [exact H3|apply mannered_fire; exact H3].
  - split; [exact H2|exact I].
Qed.
Lemma mannered_procedural t : fine mannered (procedural O t).
Proof.
  unfold procedural. apply fine_act; [intros s [I1 I2 I3]; split; [exact I1|constructor|exact I3]|].
  apply fine_yield. apply fine_act; [intros s; apply mannered_blank; repeat split|]. apply fine_get. intros s0. destruct (select O s0) as [[r|]|]; [| |apply fine_raise].
  - apply fine_act; [|apply fine_yield; cbv zeta; apply fine_yield, mannered_try].
    intros s. apply mannered_blank. unfold use_rule; repeat match goal with |- context[match ?z with _ => _ end] => destruct z end; repeat split.
  - apply fine_act; [intros s; apply mannered_blank; repeat split|]. destruct (remove_procedural (sprocs s0)); [|apply fine_raise].
    apply fine_act; [intros s; apply mannered_blank; repeat split|]. apply fine_yield, fine_ret.
Qed.
Lemma mannered_governed : governed mannered anyone (fine mannered) O (fun _ => False).
Proof.
  split.
  - intros s l n H _. revert H. apply mannered_blank; repeat split.
  - intros s. apply mannered_blank; repeat split.
  - intros s _. apply all_anyone.
  - intros s i b _ _ _ id name en stims t. exact I.
  - intros g s s' ns o F Hs. apply resume_fine; [exact Hs|apply F; exact Hs].
  - intros p _. apply tame_fine, tame_proc.
  - exact mannered_procedural.
  - intros g [].
Qed.
Theorem sim_mannered t s S : one_request s -> plain_names s -> svars s = nobind -> sim_runs O (sim_init t s None) S -> mannered (ss S).
Proof.
  intros H1 H2 V R. refine (sim_governed _ _ _ _ _ mannered_governed t s None S _ _ R); [|discriminate]. split; [exact H1|rewrite V; constructor|exact H2].
Qed.
End Mannered.
