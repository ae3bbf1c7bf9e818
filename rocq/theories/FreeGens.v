(** Which generators can leave a module busy. *)
From Coq Require Import Lia.
From Verif Require Import Base BaseFacts Chunks DecMem Buffers BufferFacts Productions ProdSpec LearnFacts LiftFacts RequestFacts Sim FreeSpec.
Local Open Scope string_scope.
Local Open Scope list_scope.
Local Open Scope nat_scope.

(** ** Changes of the list of processes *)

(** Everything stays on the list but PROCEDURAL, and what is added are requests to the buffers that their names stand for. *)
Definition keepsq (s s' : st) : Prop :=
  snames s' = snames s /\ (forall pr, In pr (sprocs s) -> pr <> PProc -> In pr (sprocs s')) /\
  forall pr, In pr (sprocs s') -> In pr (sprocs s) \/ pr = PProc \/ exists id n m j c bs t, pr = PReq id n m j c bs t /\ dget (snames s) n = Some j.
Lemma keepsq_same s s' : snames s' = snames s -> sprocs s' = sprocs s -> keepsq s s'.
Proof. intros A B. split; [exact A|]. rewrite B. auto. Qed.
Lemma keepsq_trans s1 s2 s3 : keepsq s1 s2 -> keepsq s2 s3 -> keepsq s1 s3.
Proof.
  intros (A1 & A2 & A3) (B1 & B2 & B3). split; [congruence|]. split; [auto|]. intros pr H. rewrite A1 in B3. destruct (B3 pr H) as [H'|H']; [exact (A3 pr H')|right; exact H'].
Qed.
Definition qd (i : nat) (s : st) : Prop := exists id n m c bs t, In (PReq id n m i c bs t) (sprocs s).
Lemma qd_keeps i s s' : keepsq s s' -> qd i s -> qd i s'.
Proof. intros (_ & A & _) (id & n & m & c & bs & t & H). exists id, n, m, c, bs, t. apply A; [exact H|discriminate]. Qed.

(** ** Who answers for a busy module *)

(** [h]: the generator may be the one that has to set module [i] free. *)
Definition okm (i : nat) (h h' : bool) (s s' : st) : Prop :=
  keepsq s s' /\ (working i s' -> h' = true \/ qd i s' \/ (h = false /\ working i s)).
(** [b]: the generator may be replaced by another one.  [z]: it may come to answer for the module. *)
Fixpoint pays (z b : bool) (i : nat) (h : bool) (g : gen) (s : st) {struct g} : Prop :=
  match g with
  | GRet => h = false
  | GRaise _ => True
  | GYield _ k => forall s', pays z b i h k s'
  | GCont k => b = true /\ forall s', pays z false i h k s'
  | GNote _ k => pays z b i h k s
  | GAct f k => exists h', (z = false -> h' = false) /\ okm i h h' s (f s) /\ pays z b i h' k (f s)
  | GGet k => pays z b i h (k s) s
  end.
Definition pay (z b : bool) (i : nat) (h : bool) (g : gen) : Prop := forall s, pays z b i h g s.
Definition after (i : nat) (h h' : bool) (s s' : st) : Prop := h' = true \/ (working i s' -> qd i s' \/ (h = false /\ working i s)).
Lemma resume_pays g : forall z b i h s s' ns o, pays z b i h g s -> resume g s = (s', ns, o) ->
  keepsq s s' /\
  match o with
  | ODone => after i h false s s'
  | ORaise _ => True
  | OYield _ k => exists h', (z = false -> h = false -> h' = false) /\ pay z b i h' k /\ after i h h' s s'
  | OCont k => b = true /\ exists h', (z = false -> h = false -> h' = false) /\ pay z false i h' k /\ after i h h' s s'
  end.
Proof.
  induction g as [|e|e g IH|g IH|n g IH|f g IH|g IH]; intros z b i h s s' ns o H E; cbn [resume pays] in *.
  1-4: injection E as <- <- <-; split; [apply keepsq_same; reflexivity|].
  - right. auto.
  - exact I.
  - exists h. split; [auto|]. split; [exact H|]. destruct h; [left; reflexivity|right; auto].
  - destruct H as [-> H]. split; [reflexivity|]. exists h. split; [auto|]. split; [exact H|]. destruct h; [left; reflexivity|right; auto].
  - destruct (resume g s) as [[s1 ns1] o1] eqn:E1. injection E as <- <- <-. exact (IH _ _ _ _ _ _ _ _ H E1).
  - destruct H as (h1 & Z & [K W] & H). destruct (IH _ _ _ _ _ _ _ _ H E) as [K2 R]. split; [exact (keepsq_trans _ _ _ K K2)|].
    assert (A : forall h2, after i h1 h2 (f s) s' -> after i h h2 s s').
    { intros h2 [A|A]; [left; exact A|right]. intros X. destruct (A X) as [Y|[-> Y]]; [left; exact Y|]. destruct (W Y) as [D|[Z0|Z0]]; [discriminate|left; exact (qd_keeps _ _ _ K2 Z0)|right; exact Z0]. }
    destruct o; auto.
    + destruct R as (h2 & R0 & R1 & R2). exists h2. auto.
    + destruct R as [Eb (h2 & R0 & R1 & R2)]. split; [exact Eb|]. exists h2. auto.
  - exact (IH _ _ _ _ _ _ _ _ _ H E).
Qed.
Lemma pays_more g : forall z i h s, pays z false i h g s -> pays z true i h g s.
Proof.
  induction g as [|e|e g IH|g IH|n g IH|f g IH|g IH]; intros z i h s H; cbn [pays] in *; auto.
  - destruct H as [D _]. discriminate.
  - destruct H as (h' & A & B & C). eauto.
Qed.

Lemma okm_same i h s s' : snames s' = snames s -> sprocs s' = sprocs s -> smods s' = smods s -> okm i h h s s'.
Proof. intros A B C. split; [apply keepsq_same; assumption|]. unfold working. rewrite C. destruct h; auto. Qed.
Lemma okm_to i h s s' : snames s' = snames s -> sprocs s' = sprocs s -> okm i h true s s'.
Proof. intros A B. split; [apply keepsq_same; assumption|]. auto. Qed.
Lemma attrs_fields i l s : snames (set_attrs i l s) = snames s /\ sprocs (set_attrs i l s) = sprocs s.
Proof. unfold set_attrs. destruct (nth_error (smods s) i); split; reflexivity. Qed.
Lemma working_attrs i j l s : working i (set_attrs j l s) -> (j <> i /\ working i s) \/ (j = i /\ exists m, nth_error (smods s) i = Some m /\ dget (dupdate (mattr m) l) "state" = Some "busy").
Proof.
  unfold working, set_attrs. destruct (nth_error (smods s) j) as [m|] eqn:E; [|intros (m & A & B); destruct (Nat.eq_dec j i) as [->|N]; [congruence|left; eauto]].
  cbn [smods set_mods]. intros (m' & A & B). destruct (Nat.eq_dec j i) as [->|N].
  - right. split; [reflexivity|]. exists m. split; [exact E|]. rewrite (upd_same _ _ _ m) in A by exact E. injection A as <-. exact B.
  - left. split; [exact N|]. rewrite upd_other in A by congruence. eauto.
Qed.
Lemma okm_other i j l s : j <> i -> okm i false false s (set_attrs j l s).
Proof. intros N. split; [apply keepsq_same; apply attrs_fields|]. intros W. apply working_attrs in W. destruct W as [[_ W]|[E _]]; [auto|contradiction]. Qed.
(** No change of the state of the module. *)
Lemma okm_attrs i h l s : ~ In "state" (dkeys l) -> okm i h h s (set_attrs i l s).
Proof.
  intros N. split; [apply keepsq_same; apply attrs_fields|]. intros W. apply working_attrs in W. destruct W as [[D _]|[_ (m & Hm & W)]]; [congruence|].
  destruct h; [auto|]. right. right. split; [reflexivity|]. exists m. split; [exact Hm|]. rewrite <- W. symmetry. clear - N. unfold dupdate. revert N. generalize (mattr m). induction l as [|[k v] l IH]; intros d N; [reflexivity|].
  cbn [fold_left fst snd dkeys map] in *. rewrite IH by (intros X; apply N; right; exact X). apply dget_dset_neq. intros ->. apply N. left. reflexivity.
Qed.
(** The state is set to something else. *)
Lemma okm_free i h h' l s : (forall d, dget (dupdate d l) "state" <> Some "busy") -> okm i h h' s (set_attrs i l s).
Proof. intros N. split; [apply keepsq_same; apply attrs_fields|]. intros W. apply working_attrs in W. destruct W as [[D _]|[_ (m & Hm & W)]]; [congruence|]. elim (N _ W). Qed.

Lemma pay_ret z b i : pay z b i false GRet. Proof. intros s. reflexivity. Qed.
Lemma pay_raise z b i h e : pay z b i h (GRaise e). Proof. intros s. exact I. Qed.
Lemma pay_yield z b i h e k : pay z b i h k -> pay z b i h (GYield e k). Proof. intros H s. exact H. Qed.
Lemma pay_cont z i h k : pay z false i h k -> pay z true i h (GCont k). Proof. intros H s. split; [reflexivity|exact H]. Qed.
Lemma pay_get z b i h k : (forall s, pay z b i h (k s)) -> pay z b i h (GGet k). Proof. intros H s. apply H. Qed.
Lemma pay_act z b i h h' f k : (forall s, okm i h h' s (f s)) -> (z = false -> h' = false) -> pay z b i h' k -> pay z b i h (GAct f k). Proof. intros F Z H s. exists h'. split; [exact Z|]. split; [apply F|apply H]. Qed.
Lemma pay_call {A} (f : st -> world * res A) k z b i h : (z = false -> h = false) -> (forall a, pay z b i h (k a)) -> pay z b i h (gcall f k).
Proof. intros Z H s. unfold gcall. cbn [pays]. destruct (f s) as [w [a|e]]; cbn [pays]; (exists h; split; [exact Z|]; split; [apply okm_same; reflexivity|]); [apply H|exact I]. Qed.
Lemma pay_record f k z b i h : (z = false -> h = false) -> pay z b i h k -> pay z b i h (g_record f k).
Proof. intros Z H s. unfold g_record. cbn [pays]. destruct (f s); cbn [pays]; [|exact I]. exists h. split; [exact Z|]. split; [apply okm_same; reflexivity|apply H]. Qed.
Lemma pay_seq_call {A} (f : st -> world * res A) k g z b i h : (z = false -> h = false) -> (forall a, pay z b i h (gseq (k a) g)) -> pay z b i h (gseq (gcall f k) g).
Proof. intros Z H s. unfold gcall. cbn [gseq pays]. destruct (f s) as [w [a|e]]; cbn [gseq pays]; (exists h; split; [exact Z|]; split; [apply okm_same; reflexivity|]); [apply H|exact I]. Qed.
Lemma pay_seq_record f k g z b i h : (z = false -> h = false) -> pay z b i h (gseq k g) -> pay z b i h (gseq (g_record f k) g).
Proof. intros Z H s. unfold g_record. cbn [gseq pays]. destruct (f s); cbn [gseq pays]; [|exact I]. exists h. split; [exact Z|]. split; [apply okm_same; reflexivity|apply H]. Qed.
Lemma pays_assoc x y w : forall z b i h s, pays z b i h (gseq x (gseq y w)) s -> pays z b i h (gseq (gseq x y) w) s.
Proof.
  induction x as [|e|e g IH|g IH|n g IH|f g IH|g IH]; intros z b i h s H; cbn [gseq pays] in *; auto.
  all: destruct H as (h' & A & B & C). eauto.
Qed.
Lemma pay_assoc x y w z b i h : pay z b i h (gseq x (gseq y w)) -> pay z b i h (gseq (gseq x y) w).
Proof. intros H s. apply pays_assoc, H. Qed.
Lemma pays_seq x y : forall z i h s, pays z false i h x s -> pay z false i false y -> pays z false i h (gseq x y) s.
Proof.
  induction x as [|e|e g IH|g IH|n g IH|f g IH|g IH]; intros z i h s H Y; cbn [gseq pays] in *; auto.
  - subst h. apply Y.
  - destruct H as (h' & A & B & C). exists h'. auto.
Qed.

Ltac mods := unfold set_focus, set_attend, set_mvt, set_mlast; intros ?; destruct (nth_error _ _) eqn:?.
Lemma okm_mods i h j s m m' : nth_error (smods s) j = Some m -> mattr m' = mattr m -> okm i h h s (set_mods (upd (smods s) j m') s).
Proof.
  intros E A. split; [apply keepsq_same; reflexivity|]. intros (x & X & Y). destruct h; [auto|]. right. right. split; [reflexivity|]. cbn [smods set_mods] in X. destruct (Nat.eq_dec i j) as [->|N].
  - rewrite (upd_same _ _ _ m) in X by exact E. injection X as <-. exists m. split; congruence.
  - rewrite upd_other in X by exact N. exists x. auto.
Qed.
Lemma okm_focus i h j p s : okm i h h s (set_focus j p s). Proof. unfold set_focus. destruct (nth_error (smods s) j) eqn:E; [eapply okm_mods; [exact E|reflexivity]|apply okm_same; reflexivity]. Qed.
Lemma okm_attend i h j p s : okm i h h s (set_attend j p s). Proof. unfold set_attend. destruct (nth_error (smods s) j) eqn:E; [eapply okm_mods; [exact E|reflexivity]|apply okm_same; reflexivity]. Qed.
Lemma okm_mvt i h j p s : okm i h h s (set_mvt j p s). Proof. unfold set_mvt. destruct (nth_error (smods s) j) eqn:E; [eapply okm_mods; [exact E|reflexivity]|apply okm_same; reflexivity]. Qed.
Lemma okm_mlast i h j p s : okm i h h s (set_mlast j p s). Proof. unfold set_mlast. destruct (nth_error (smods s) j) eqn:E; [eapply okm_mods; [exact E|reflexivity]|apply okm_same; reflexivity]. Qed.
Lemma okm_busy i h s : okm i h true s (set_state i "busy" s). Proof. apply okm_to; apply attrs_fields. Qed.
Lemma okm_freed i h s : okm i h false s (set_state i "free" s). Proof. apply okm_free. intros d. unfold dupdate. cbn [fold_left fst snd]. rewrite dget_dset_eq. discriminate. Qed.
Lemma okm_error i h s : okm i h false s (set_state i "error" s). Proof. apply okm_free. intros d. unfold dupdate. cbn [fold_left fst snd]. rewrite dget_dset_eq. discriminate. Qed.

Ltac zed := first [reflexivity|discriminate|intros _; reflexivity|assumption].
Ltac pay_step :=
  cbv beta zeta; cbn [gseq];
  match goal with
  | |- pay _ _ _ false GRet => apply pay_ret
  | |- pay _ _ _ _ (GRaise _) => apply pay_raise
  | |- pay _ _ _ _ (gcall _ _) => apply pay_call; [zed|intro]
  | |- pay _ _ _ _ (gseq (gcall _ _) _) => apply pay_seq_call; [zed|intro]
  | |- pay _ _ _ _ (g_record _ _) => apply pay_record; [zed|]
  | |- pay _ _ _ _ (gseq (g_record _ _) _) => apply pay_seq_record; [zed|]
  | |- pay _ _ _ _ (gseq (gseq _ _) _) => apply pay_assoc
  | |- pay _ _ _ _ (GYield _ _) => apply pay_yield
  | |- pay _ _ _ _ (GCont _) => apply pay_cont
  | |- pay _ _ _ _ (GGet _) => apply pay_get; intro
  | |- pay _ _ _ _ (GAct (set_focus _ _) _) => eapply pay_act; [apply okm_focus|zed|]
  | |- pay _ _ _ _ (GAct (set_attend _ _) _) => eapply pay_act; [apply okm_attend|zed|]
  | |- pay _ _ _ _ (GAct (set_mvt _ _) _) => eapply pay_act; [apply okm_mvt|zed|]
  | |- pay _ _ _ _ (GAct (set_mlast _ _) _) => eapply pay_act; [apply okm_mlast|zed|]
  | |- pay _ _ _ _ (GAct (fun s => set_mlast _ _ s) _) => eapply pay_act; [intros ?; apply okm_mlast|zed|]
  | |- pay _ _ _ _ (GAct (fun s => set_keys _ s) _) => eapply pay_act; [intros ?; apply okm_same; reflexivity|zed|]
  | |- pay _ _ _ _ (GAct (fun s => set_extra _ s) _) => eapply pay_act; [intros ?; apply okm_same; reflexivity|zed|]
  | |- pay _ _ _ _ (GAct (if ?x then _ else _) _) => eapply pay_act; [intros ?; destruct x; apply okm_same; reflexivity|zed|]
  | N : ?j <> ?i |- pay _ _ ?i _ (GAct (set_state ?j _) _) => eapply pay_act; [intros ?; apply okm_other; exact N|zed|]
  | N : ?j <> ?i |- pay _ _ ?i _ (GAct (set_attrs ?j _) _) => eapply pay_act; [intros ?; apply okm_other; exact N|zed|]
  | |- pay _ _ ?i _ (GAct (set_state ?i "busy") _) => eapply pay_act; [apply okm_busy|zed|]
  | |- pay _ _ ?i _ (GAct (set_state ?i "free") _) => eapply pay_act; [apply okm_freed|zed|]
  | |- pay _ _ ?i _ (GAct (set_state ?i "error") _) => eapply pay_act; [apply okm_error|zed|]
  | |- pay _ _ _ _ (match ?x with _ => _ end) => destruct x eqn:?
  | |- pay _ _ _ _ (match ?x with _ => _ end _) => destruct x eqn:?
  | |- pay _ _ _ _ (gseq (match ?x with _ => _ end) _) => destruct x eqn:?
  end.
Ltac all_of := unfold start, g_extra, g_modify, g_execute, g_clear, g_overwrite, g_modreq, g_request, g_setgoal,
    g_find, g_visual, g_shift, g_viscont, g_encode, g_motor, g_motorcont, g_retrieve, g_clear.

(** Methods of other modules. *)
Lemma pay_other O m name j c bs t i : j <> i -> pay false true i false (start O m name j c bs t).
Proof. intros N. destruct m; all_of; repeat pay_step. Qed.

Lemma okm_set i h l v s : (forall d, dget (dupdate d l) "state" = Some v) -> okm i h (String.eqb v "busy") s (set_attrs i l s).
Proof.
  intros N. destruct (String.eqb_spec v "busy") as [E|E]; [apply okm_to; apply attrs_fields|]. apply okm_free. intros d. rewrite N. intros X. injection X. exact E.
Qed.
Ltac is_state := unfold dupdate; cbn [fold_left fst snd]; repeat (rewrite dget_dset_neq by discriminate); rewrite dget_dset_eq; reflexivity.
Ltac set_step :=
  match goal with
  | |- pay _ _ ?i _ (GAct (set_attrs ?i ?l) _) =>
      first [ eapply pay_act; [intros ?; eapply okm_set with (v := "busy"); intros ?; is_state|zed|]; change (String.eqb "busy" "busy") with true
            | eapply pay_act; [intros ?; eapply okm_set with (v := "free"); intros ?; is_state|zed|]; change (String.eqb "free" "busy") with false
            | eapply pay_act; [intros ?; apply okm_attrs; cbn [dkeys map fst In]; intuition discriminate|zed|] ]
  end.

(** Methods of the module itself, whoever has set it busy. *)
Lemma pay_own O m name i c bs t h : ~ idle_command m c bs -> pay true true i h (start O m name i c bs t).
Proof. intros NI. destruct m, h; all_of; repeat (pay_step || (cbv beta zeta; cbn [gseq]; set_step)).
  all: try discriminate. all: exfalso; apply NI; split; [reflexivity|]. all: do 3 eexists; split; [reflexivity|]; split; [eassumption|]; split; [eassumption|]; auto.
Qed.

(** Methods that procedural_process runs by itself. *)
Lemma pay_inline O m name j c bs t i h : interruptible m = false -> j = i \/ h = false -> pay true false i h (start O m name j c bs t).
Proof.
  intros Im [-> | ->].
  - destruct m, h; try discriminate; all_of; repeat (pay_step || (cbv beta zeta; cbn [gseq]; set_step)).
  - destruct (Nat.eq_dec j i) as [->|N]; destruct m; try discriminate; all_of; repeat (pay_step || (cbv beta zeta; cbn [gseq]; set_step)).
Qed.

Lemma keepsq_add n m j c bs t s : dget (snames s) n = Some j -> keepsq s (add_proc n m j c bs t s).
Proof.
  intros D. split; [reflexivity|]. unfold add_proc. cbn [sprocs set_procs]. split; [intros pr H _; apply in_or_app; left; exact H|].
  intros pr H. apply in_app_or in H. destruct H as [H|[<-|[]]]; [left; exact H|right; right]. do 7 eexists. split; [reflexivity|exact D].
Qed.
Lemma mods_harvest t ns : forall s, smods (harvest ns t s) = smods s.
Proof. induction ns as [|n ns IH]; intros s; [reflexivity|]. cbn [harvest]. rewrite IH. destruct (dget (snames s) n); reflexivity. Qed.
Lemma keepsq_harvest t ns : forall s, keepsq s (harvest ns t s).
Proof.
  induction ns as [|n ns IH]; intros s; cbn [harvest]; [apply keepsq_same; reflexivity|]. destruct (dget (snames s) n) as [j|] eqn:D; [|apply IH]. exact (keepsq_trans _ _ _ (keepsq_add _ _ _ _ _ _ _ D) (IH _)).
Qed.
Lemma okm_kept i s s' : keepsq s s' -> smods s' = smods s -> okm i false false s s'.
Proof. intros K E. split; [exact K|]. unfold working. rewrite E. auto. Qed.
Lemma pay_actions O t l i : forall temp, pay true false i false (actions O t temp l).
Proof.
  induction l as [|[key c] l IH]; intros temp s; cbn [actions].
  - cbn [pays]. destruct (qstrict (sp s)); cbn [pays]; [|reflexivity]. exists false. split; [discriminate|]. split; [|reflexivity]. apply okm_kept; [apply keepsq_harvest|apply mods_harvest].
  - destruct key as [|code name]; [exact I|]. destruct (rhs_meth code) as [m|] eqn:Em; [|exact I]. cbv zeta. cbn [pays]. destruct (dget (snames s) name) as [j|] eqn:D; [|exact I]. cbn [pays].
    pose proof (attrs_fields j [("state", "busy")] s) as [EN EP]. fold (set_state j "busy" s) in EN, EP.
    assert (D' : dget (snames (set_state j "busy" s)) name = Some j) by congruence.
    destruct (Nat.eq_dec j i) as [->|N].
    + exists true. split; [discriminate|]. split; [apply okm_busy|]. destruct (interruptible m) eqn:Ei.
      * cbn [pays]. exists false. split; [discriminate|]. split; [|apply IH]. split; [apply keepsq_add; exact D'|]. intros _. right. left. unfold qd, add_proc. cbn [sprocs set_procs]. do 6 eexists. apply in_or_app. right. left. reflexivity.
      * apply pays_seq; [apply pay_inline; auto|apply IH].
    + exists false. split; [discriminate|]. split; [apply okm_other; exact N|]. destruct (interruptible m) eqn:Ei.
      * cbn [pays]. exists false. split; [discriminate|]. split; [|apply IH]. apply okm_kept; [apply keepsq_add; exact D'|reflexivity].
      * apply pays_seq; [apply pay_inline; auto|apply IH].
Qed.
Lemma pay_fire O r ru t i : pay true false i false (g_fire O r ru t).
Proof.
  unfold g_fire, g_update. eapply pay_act; [intros s; apply okm_same; reflexivity|zed|]. apply pay_yield. intros s. cbn [gseq pays]. destruct (ordered_rhs (rrhs ru)) as [l|]; [|exact I]. apply pays_seq; [apply pay_actions|].
  eapply pay_act; [|discriminate|apply pay_ret]. intros s2. destruct (slast s2) as [l0|]; [destruct (_ && _)%bool|]; apply okm_same; reflexivity.
Qed.
Lemma pay_try O r t i : pay true false i false (g_try O r t).
Proof.
  intros s. unfold g_try. cbn [pays]. destruct (dget (srules s) r) as [ru|]; [|exact I]. destruct (lhs_test s (rlhs ru) (svars s)) as [[bs|]|]; [|intros s'; reflexivity|exact I].
  cbv zeta. destruct (learned (set_vars bs s) ru t) as [s2|] eqn:L; [|exact I].
  assert (N : snames s2 = snames s /\ sprocs s2 = sprocs s /\ smods s2 = smods s).
  { revert L. unfold learned. destruct (rreward ru); [|intros [= <-]; repeat split; reflexivity]. destruct (qlearn _); [|intros [= <-]; repeat split; reflexivity]. destruct (modify_utilities _ _ _ _ _); [|discriminate]. intros [= <-]. repeat split; reflexivity. }
  destruct N as (N1 & N2 & N3).
  destruct (compile_now O s2) as [[[[n again] rs]|]|e]; cbn [pays]; (exists false; split; [discriminate|]; split; [apply okm_same; assumption|]).
  - intros s'. apply pay_fire.
  - apply pay_fire.
  - exact I.
Qed.
Lemma keepsq_removed s l s' : remove_procedural (sprocs s) = Some l -> sprocs s' = l -> snames s' = snames s -> keepsq s s'.
Proof.
  intros R E N. split; [exact N|]. rewrite E. clear E N s'. revert l R. generalize (sprocs s). intros l0. enough (A : forall l, remove_procedural l0 = Some l -> (forall pr, In pr l0 -> pr <> PProc -> In pr l) /\ (forall pr, In pr l -> In pr l0)).
  { intros l R. destruct (A l R) as [A1 A2]. auto. }
  induction l0 as [|p l0 IH]; intros l R; [discriminate|]. cbn [remove_procedural] in R.
  assert (B : p <> PProc -> exists l', remove_procedural l0 = Some l' /\ l = p :: l').
  { intros X. destruct p; [congruence| |]; (destruct (remove_procedural l0) as [l'|]; [|discriminate]; injection R as <-; eauto). }
  destruct p; [injection R as <-; split; [intros pr [<-|H] X; [congruence|exact H]|intros pr H; right; exact H]| |].
  all: destruct B as (l' & R' & ->); [discriminate|]; destruct (IH l' R') as [A1 A2]; split; [intros pr [<-|H] X; [left; reflexivity|right; auto]|intros pr [<-|H]; [left; reflexivity|right; auto]].
Qed.
Lemma pay_procedural O t i : pay true false i false (procedural O t).
Proof.
  unfold procedural. eapply pay_act; [intros s; apply okm_kept with (i := i); [|reflexivity]|zed|].
  { split; [reflexivity|]. cbn [sprocs set_vars set_procs]. split; [intros pr H _; apply in_or_app; left; exact H|]. intros pr H. apply in_app_or in H. destruct H as [H|[<-|[]]]; auto. }
  apply pay_yield. eapply pay_act; [intros s; apply okm_same; reflexivity|zed|]. intros s. cbn [pays]. destruct (select O s) as [[r|]|]; [| |exact I]; cbn [pays].
  - exists false. split; [discriminate|]. split; [|intros s' s2; apply pay_try]. apply okm_same; reflexivity.
  - exists false. split; [discriminate|]. split; [apply okm_same; reflexivity|]. destruct (remove_procedural (sprocs s)) as [l|] eqn:R; cbn [pays]; [|exact I]. exists false. split; [discriminate|]. split; [|reflexivity]. apply okm_kept; [|reflexivity].
    eapply keepsq_removed; [exact R|reflexivity|reflexivity].
Qed.
