(** What holds in simulations holds after every sequence of run() and step(). *)
From Coq Require Import Lia.
From Verif Require Import Base BaseFacts Chunks DecMem DecMemFacts Buffers BufferFacts FinstFacts Productions ProdSpec CycleFacts LearnFacts Sim SimSpec StoryFacts ReachSpec LiftFacts ReachFacts Compile CompileSpec CompileFacts CompileSame FrameSpec FrameFacts MotorSpec Environment EnvSpec Window WindowSpec WindowFacts Model Run RunSpec RulesSpec.
Local Open Scope string_scope.
Local Open Scope list_scope.
Local Open Scope nat_scope.

Section Governed.
Variables (P : st -> Prop) (Wait : proc -> Prop) (Fine : gen -> Prop) (O : oracle) (Ext : gen -> Prop).
Hypothesis G : governed P Wait Fine O Ext.
Hypothesis C : forall s n again rs, P s -> compile_now O s = Ok (Some (n, again, rs)) -> P (set_order (sorder s ++ [n]) (set_rules rs s)).
Notation J := (inv P Wait Fine).

Lemma lift_step X X' : J X -> sim_step O X = Some X' -> J X'.
Proof. apply (inv_step P Wait Fine O Ext G). Qed.
Lemma lift_end X : J X -> J (fst (at_end O X)).
Proof.
  intros H. unfold at_end. destruct (peek X); [exact H|]. unfold compile_end. destruct (compile_now O (ss X)) as [[[[n a] rs]|]|e] eqn:E; try exact H.
  cbn [fst]. destruct H as [A1 A2 A3 A4 A5]. split; [exact (C _ _ _ _ A1 E)|exact A2|exact A3|exact A4|exact A5].
Qed.
Lemma lift_loop u X X' : loop O u X X' -> J X -> J X'.
Proof. intros L. induction L as [X t D|X D E|X X1 X2 D E F L IH]; auto. intros H. apply IH. exact (lift_step _ _ H F). Qed.
Lemma lift_drain X X' : drain O X X' -> J X -> J X'.
Proof. intros L. induction L as [X t D|X D E|X X1 X2 D E F L IH]; auto. intros H. apply IH. exact (lift_step _ _ H F). Qed.
Lemma lift_tick X X' : tick O X X' -> J X -> J X'.
Proof. intros (X1 & _ & E & D) H. exact (lift_drain _ _ D (lift_step _ _ H E)). Qed.
Lemma lift_run u X r : run O u X r -> J X -> J (fst r).
Proof.
  intros [L|X1 t L Lp D|X1 L Lp D] H; [exact H|exact (lift_loop _ _ _ Lp H)|]. apply lift_end. destruct (lift_loop _ _ _ Lp H) as [A1 A2 A3 A4 A5]. split; assumption.
Qed.
Lemma lift_steps l X r : step_ O l X r -> J X -> J (fst (fst r)).
Proof.
  intros H. induction H as [X|X X1 f Hd Ti D1|X X1 e Hd Ti D1 N1|X X1 X2 f Hd Ti D1 N1 E1|X X1 X2 r Hd Ti D1 N1 E1 Rr IH]; intros K; cbn [fst] in *; auto.
  - exact (lift_tick _ _ Ti K).
  - exact (lift_tick _ _ Ti K).
  - pose proof (lift_end X1 (lift_tick _ _ Ti K)) as Q. rewrite E1 in Q. exact Q.
  - apply IH. pose proof (lift_end X1 (lift_tick _ _ Ti K)) as Q. rewrite E1 in Q. exact Q.
Qed.
Lemma lift_session t s env X l : P s -> (forall g, env = Some g -> Ext g) -> session O t s env X l -> J X.
Proof.
  intros H0 E H. induction H as [|u X l X' H IH Rn|X l X' l' H IH Rn].
  - apply (inv_init P Wait Fine O Ext G); assumption.
  - exact (lift_run _ _ _ Rn IH).
  - exact (lift_steps _ _ _ Rn IH).
Qed.
Theorem left_governed t s env X : P s -> (forall g, env = Some g -> Ext g) -> left_by O t s env X -> P (ss X).
Proof.
  intros H0 E H. apply (i_ss P Wait Fine). destruct H as [X l H|X l u X' c H Rn|X l X' l' c H Rn].
  - exact (lift_session _ _ _ _ _ H0 E H).
  - exact (lift_run _ _ _ Rn (lift_session _ _ _ _ _ H0 E H)).
  - exact (lift_steps _ _ _ Rn (lift_session _ _ _ _ _ H0 E H)).
Qed.
End Governed.

Lemma left_keeps P : closed P -> forall O, respects O -> forall t s env S, P s -> (forall g, env = Some g -> aloof g) -> left_by O t s env S -> P (ss S).
Proof.
  intros C O RO t s env S. apply (left_governed P anyone (fine P) O aloof); [apply closed_governed; assumption|].
  intros s1 n a rs H _. revert H. apply (cl_same P C); auto.
Qed.

Theorem left_reach O t s env S : respects O -> (forall g, env = Some g -> aloof g) -> left_by O t s env S -> reach (sw s) (sw (ss S)).
Proof.
  intros RO A R. refine (left_keeps (fun s' => reach (sw s) (sw s')) _ O RO t s env S (reach_refl _) A R). split.
  - intros s1 s2 _ E _ _ _ _ H. rewrite E. exact H.
  - intros s1 w H1 H2. cbn. eapply reach_trans; eassumption.
Qed.
Theorem left_fixed O t s env S : respects O -> (forall g, env = Some g -> aloof g) -> left_by O t s env S ->
  sp (ss S) = sp s /\ snames (ss S) = snames s /\ sdm (ss S) = sdm s /\ (sprep (ss S) = true -> sprep s = true).
Proof.
  intros RO A R.
  refine (left_keeps (fun s' => sp s' = sp s /\ snames s' = snames s /\ sdm s' = sdm s /\ (sprep s' = true -> sprep s = true)) _ O RO t s env S _ A R); [|auto]. split.
  - intros s1 s2 E1 E2 E3 E4 E5 _ (H1 & H2 & H3 & H4). repeat split; try congruence. auto.
  - intros s1 w _ H. exact H.
Qed.
Theorem left_keys O t s env S : respects O -> (forall g, env = Some g -> aloof g) ->
  (forall u, In u (skeys s) -> exists v, u = VStr v /\ known_key v) ->
  left_by O t s env S -> forall u, In u (skeys (ss S)) -> exists v, u = VStr v /\ known_key v.
Proof.
  intros RO A H0 R. refine (left_keeps (fun s' => forall u, In u (skeys s') -> exists v, u = VStr v /\ known_key v) _ O RO t s env S H0 A R). split.
  - intros s1 s2 _ _ _ _ _ K H u U. destruct (K u U) as [X|X]; [apply H; exact X|exact X].
  - intros s1 w _ H. exact H.
Qed.
Theorem left_at_most_one O t s env S i l : respects O -> (forall g, env = Some g -> aloof g) ->
  (forall j k, holds_chunks (sw s) j k -> k = [] \/ exists c, k = [c]) ->
  left_by O t s env S -> holds_chunks (sw (ss S)) i l -> l = [] \/ exists c, l = [c].
Proof.
  intros RO A H0 R (b & E & <-).
  assert (H : all_small (sw s)).
  { apply Forall_forall. intros b' I'. apply In_nth_error in I'. destruct I' as [j J]. unfold small. destruct (H0 j (bdata b')) as [->|[c ->]]; [exists b'; auto|cbn; lia..]. }
  pose proof (nth_Forall small _ _ _ (reach_small _ _ (left_reach O t s env S RO A R) H) E) as N. unfold small in N.
  destruct (bdata b) as [|c [|]]; cbn in N; [auto|eauto|lia].
Qed.
Theorem left_never_forgets O t s env S m dm : respects O -> (forall g, env = Some g -> aloof g) ->
  left_by O t s env S -> memory (sw s) m = Some dm -> exists dm', memory (sw (ss S)) m = Some dm' /\ extends dm dm'.
Proof. intros RO A R. exact (reach_extends _ _ (left_reach O t s env S RO A R) m dm). Qed.
Theorem left_recent_bounded O t s env S i b : respects O -> (forall g, env = Some g -> aloof g) ->
  nth_error (bufs (sw s)) i = Some b -> List.length (brecent b) <= bfinst b -> left_by O t s env S ->
  exists b', nth_error (bufs (sw (ss S))) i = Some b' /\ bkind b' = bkind b /\ bfinst b' = bfinst b /\ List.length (brecent b') <= bfinst b.
Proof. intros RO A E L R. exact (reach_finsts _ _ i b (left_reach O t s env S RO A R) E L). Qed.

(** ** Buffers that rules do not mention *)

Lemma framed_compile O tie i n b m p : compiles_with O tie -> (qstrict p = true -> qcompile p = false) ->
  forall s name again rs, framed i n b m p s -> compile_now O s = Ok (Some (name, again, rs)) -> framed i n b m p (set_order (sorder s ++ [name]) (set_rules rs s)).
Proof.
  intros CO Cp s name again rs H2 C. destruct (qstrict p) eqn:Q.
  { exfalso. unfold compile_now in C. rewrite (fr_par _ _ _ _ _ s H2), (Cp eq_refl) in C. discriminate C. }
  destruct (compile_now_inv _ _ _ _ CO C) as (r1 & r2 & vals & _ & K). destruct H2 as [I1 I2 I3 I4 I5 I6 I7 I8]. split; try assumption; try (rewrite Q; discriminate).
  intros m' rm E. cbn [srules set_last set_order set_rules] in E. pose proof (compile_exact _ _ _ _ _ _ _ _ K) as (_ & ru1 & ru2 & l & rr & G1 & G2 & _ & D).
  destruct again; destruct D as [(Ha & D1 & D2)|(Ha & D)]; try discriminate Ha.
  - destruct D as (old & G & _ & _ & ->). destruct (qlearn (sp s)); [|exact (I5 m' rm E)]. destruct (no_new_util _ _ _ _ G m' rm E) as (o' & E' & _ & ->). exact (I5 m' o' E').
  - destruct (string_dec m' name) as [->|Nm].
    + destruct (compile_actions _ _ _ _ _ _ _ _ _ _ K G1 G2 E) as (_ & A & _). intros (code & Hc). destruct (A _ Hc) as [Hk|Hk].
      * apply (I5 r2 ru2 G2). exists code. exact Hk.
      * apply (I5 r1 ru1 G1). exists code. exact Hk.
    + rewrite D2, dget_dset_neq in E by congruence. exact (I5 m' rm E).
Qed.
Theorem left_framed O tie t s env S n i b : minds_own O -> compiles_with O tie -> (forall g, env = Some g -> shows_only g) ->
  named s n i -> nth_error (bufs (sw s)) i = Some b -> bkind b <> KLocation -> bkind b <> KVisual ->
  spared s n -> unharvested s n -> (qstrict (sp s) = true -> qcompile (sp s) = false) -> sprocs s = [] -> svars s = nobind ->
  left_by O t s env S -> nth_error (bufs (sw (ss S))) i = Some b /\ nth_error (smods (ss S)) i = nth_error (smods s) i.
Proof.
  intros OO CO E N B K1 K2 Sp U Q Pr V R.
  assert (F : framed i n b (nth_error (smods s) i) (sp s) (ss S)).
  { refine (left_governed _ _ _ _ _ (framed_governed O OO tie CO i n b (nth_error (smods s) i) (sp s) (conj K1 K2) _) (framed_compile O tie i n b _ _ CO Q) t s env S _ E R).
    - intros H. split; [exact (Q H)|]. destruct U as [U|U]; [congruence|exact (proj2 U)].
    - split; try assumption; try reflexivity; [destruct U as [U|[U _]]; [congruence|exact (fun _ => U)]|rewrite V; intros _ []|rewrite Pr; constructor]. }
  split; apply F.
Qed.

(** ** Screens *)

Theorem left_screen (Q : screen -> Prop) O t s env S : (forall g, env = Some g -> keeps_screen Q g) -> left_by O t s env S -> Q (sscreen s) -> Q (sscreen (ss S)).
Proof.
  intros A H H0. refine (left_governed (fun s => True -> Q (sscreen s)) anyone _ O (keeps_screen Q) (onto_governed Q True O) _ t s env S (fun _ => H0) A H I).
  intros s1 n a rs K _. exact K.
Qed.
Theorem left_given O t s initial stimuli triggers times start S :
  left_by O t s (Some (env_process initial stimuli triggers times start)) S -> sscreen (ss S) = sscreen s \/ given (as_list stimuli) (sscreen (ss S)).
Proof.
  intros R. refine (left_screen (fun x => x = sscreen s \/ given (as_list stimuli) x) O t s _ S _ R _); [|left; reflexivity].
  intros g [= <-]. apply env_keeps. auto.
Qed.
Theorem left_alone O t s S : left_by O t s None S -> sscreen (ss S) = sscreen s.
Proof. intros H. apply (left_screen (fun x => x = sscreen s) O t s None S); [discriminate|exact H|reflexivity]. Qed.

(** ** Several simulations *)

Lemma give_dm_small w i m : all_small w -> all_small (give_dm w i m) /\ mems (give_dm w i m) = mems w.
Proof.
  intros H. unfold give_dm. destruct (nth_error (bufs w) i) as [b|] eqn:E; [|auto]. split; [|reflexivity]. apply upd_Forall; [exact H|].
  exact (nth_Forall small _ _ _ H E).
Qed.
Lemma give_all_small m names : forall w, all_small w -> all_small (give_all w names m) /\ mems (give_all w names m) = mems w.
Proof.
  unfold give_all. induction names as [|p names IH]; intros w H; [auto|]. cbn [fold_left]. destruct (give_dm_small w (snd p) m H) as [A B]. destruct (IH _ A) as [C D].
  split; [exact C|congruence].
Qed.
Lemma give_needy_small a names : forall w, all_small w -> all_small (fst (give_needy w a names)) /\ mems (fst (give_needy w a names)) = mems w.
Proof.
  induction names as [|[x i] names IH]; intros w H; [auto|]. cbn [give_needy]. destruct (match buf_dm w i with Some m => mem_truthy w m | None => false end); [apply IH, H|].
  destruct (the_decmem a) as [m|e]; [|auto]. destruct (give_dm_small w i m H) as [A B]. destruct (IH _ A) as [C D]. split; [exact C|congruence].
Qed.
Lemma assign_small w a : all_small w -> all_small (fst (assign_memories w a)) /\ mems (fst (assign_memories w a)) = mems w.
Proof.
  intros H. unfold assign_memories. destruct (Nat.eqb _ 1).
  - destruct (the_decmem a); [apply give_all_small, H|auto].
  - destruct (Nat.eqb _ 1); [apply give_needy_small, H|auto].
Qed.
Lemma more_small w l r : all_small w -> Forall small l -> all_small (MkW (mems w) (bufs w ++ l) r).
Proof. intros H K. apply Forall_app. split; assumption. Qed.
Lemma prepare_small w a env w' r : prepare_simulation w a env = (w', r) -> all_small w -> all_small w' /\ mems w' = mems w.
Proof.
  intros P H. unfold prepare_simulation in P. destruct (assign_small w a H) as [A B]. destruct (assign_memories w a) as [w1 [u|e]]; [|injection P as <- _; auto]. cbn [fst] in A, B.
  assert (A2 : all_small (MkW (mems w1) (bufs w1 ++ [new_motor]) (wreg w1))) by (apply more_small; [exact A|repeat constructor]).
  destruct (negb env); [injection P as <- _; auto|]. destruct (avis a) as [|p v]; [|injection P as <- _; auto].
  destruct (used_memories w1 (abuffers a)) as [|[? m] ?]; [injection P as <- _; auto|]. injection P as <- _.
  split; [|exact B]. apply Forall_app. split; [exact A2|repeat constructor].
Qed.
Lemma prepare_mems w a env w' r : prepare_simulation w a env = (w', r) -> mems w' = mems w.
Proof.
  assert (D : forall w i m, mems (give_dm w i m) = mems w) by (intros w1 i m; unfold give_dm; destruct (nth_error (bufs w1) i); reflexivity).
  assert (E : mems (fst (assign_memories w a)) = mems w).
  { unfold assign_memories. destruct (Nat.eqb _ 1).
    - destruct (the_decmem a) as [m|]; [|reflexivity]. cbn [fst]. unfold give_all. generalize (abuffers a). intros l. clear -D. revert w.
      induction l as [|p l IH]; intros w; [reflexivity|]. cbn [fold_left]. rewrite IH. apply D.
    - destruct (Nat.eqb _ 1); [|reflexivity]. generalize (abuffers a) as l. intros l. revert w. induction l as [|[x i] l IH]; intros w; [reflexivity|]. cbn [give_needy].
      destruct (match buf_dm w i with Some m => mem_truthy w m | None => false end); [apply IH|]. destruct (the_decmem a) as [m|]; [|reflexivity]. rewrite IH. apply D. }
  intros P. unfold prepare_simulation in P. destruct (assign_memories w a) as [w1 [u|e]]; [|injection P as <- _; exact E]. cbn [fst] in E.
  destruct (negb env); [injection P as <- _; exact E|]. destruct (avis a) as [|p v]; [|injection P as <- _; exact E].
  destruct (used_memories w1 (abuffers a)) as [|[? m] ?]; injection P as <- _; exact E.
Qed.
Theorem life_never_forgets w w' m dm : life w w' -> memory w m = Some dm -> exists dm', memory w' m = Some dm' /\ extends dm dm'.
Proof.
  intros L. revert m dm. change (all_extend w w'). induction L as [w|w w1 a env w2 r L IH P|w w1 O t s env S L IH E RO A H].
  - apply ae_refl. reflexivity.
  - eapply ae_trans; [exact IH|]. apply ae_refl. exact (prepare_mems _ _ _ _ _ P).
  - subst w1. eapply ae_trans; [exact IH|]. apply reach_extends. exact (left_reach O t s env S RO A H).
Qed.
Theorem life_at_most_one w w' i l : (forall j k, holds_chunks w j k -> k = [] \/ exists c, k = [c]) -> life w w' -> holds_chunks w' i l -> l = [] \/ exists c, l = [c].
Proof.
  intros H0 L. assert (H : all_small w).
  { apply Forall_forall. intros b' I'. apply In_nth_error in I'. destruct I' as [j J]. unfold small. destruct (H0 j (bdata b')) as [->|[c ->]]; [exists b'; auto|cbn; lia..]. }
  clear H0. assert (K : all_small w').
  { induction L as [w|w w1 a env w2 r L IH P|w w1 O t s env S L IH E RO A R]; [exact H|exact (proj1 (prepare_small _ _ _ _ _ P (IH H)))|].
    subst w1. exact (reach_small _ _ (left_reach O t s env S RO A R) (IH H)). }
  intros (b & E & <-). pose proof (nth_Forall small _ _ _ K E) as N. unfold small in N. destruct (bdata b) as [|c [|]]; cbn in N; [auto|eauto|lia].
Qed.
