(** Invariants of the simulation. *)
From Coq Require Import Lia Sorted.
From Verif Require Import Base BaseFacts Chunks DecMem Buffers BufferFacts Productions ProdSpec LearnFacts Sim.
Local Open Scope string_scope.
Local Open Scope list_scope.
Local Open Scope nat_scope.

(** ** Tokens: the places from which a process can be resumed *)

Definition cres (p : nat) (l : list cb) : nat := List.length (filter (fun c => cb_eqb c (CResume p)) l).
Definition cbs_of (e : evt) : list cb := match ecbs e with Some l => l | None => [] end.
Definition esum (p : nat) (l : list evt) : nat := list_sum (map (fun e => cres p (cbs_of e)) l).
Definition tokE (p : nat) (S : sim) : nat := esum p (evs S).
Definition tokW (p : nat) (w : work) : nat :=
  match w with WCb _ (CResume q) | WRun q _ => if Nat.eqb q p then 1 else 0 | _ => 0 end.
Definition wsum (p : nat) (l : list work) : nat := list_sum (map (tokW p) l).
Definition tokT (p : nat) (S : sim) : nat := wsum p (todo S).

Lemma list_sum_upd {A} (f : A -> nat) l i a b : nth_error l i = Some a ->
  list_sum (map f (upd l i b)) + f a = list_sum (map f l) + f b.
Proof.
  revert i. induction l as [|x l IH]; intros [|i] H; simpl in *; try discriminate.
  - injection H as ->. lia.
  - specialize (IH i H). lia.
Qed.
Lemma esum_app p l l' : esum p (l ++ l') = esum p l + esum p l'.
Proof. unfold esum. rewrite map_app, list_sum_app. reflexivity. Qed.
Lemma cres_app p l l' : cres p (l ++ l') = cres p l + cres p l'.
Proof. unfold cres. rewrite filter_app, app_length. reflexivity. Qed.
Lemma wsum_app p l l' : wsum p (l ++ l') = wsum p l + wsum p l'.
Proof. unfold wsum. rewrite map_app, list_sum_app. reflexivity. Qed.
Lemma esum_upd p l i a b : nth_error l i = Some a -> esum p (upd l i b) + cres p (cbs_of a) = esum p l + cres p (cbs_of b).
Proof. apply (list_sum_upd (fun e => cres p (cbs_of e))). Qed.
Lemma esum_same p l i a b : nth_error l i = Some a -> cres p (cbs_of a) = cres p (cbs_of b) -> esum p (upd l i b) = esum p l.
Proof. intros H E. pose proof (esum_upd p l i a b H). lia. Qed.
Lemma cb_eqb_eq a b : cb_eqb a b = true <-> a = b.
Proof. destruct a, b; simpl; try (split; intros; congruence); rewrite Nat.eqb_eq; split; congruence. Qed.
Lemma cres_In p l : In (CResume p) l <-> 0 < cres p l.
Proof.
  unfold cres. induction l as [|c l IH]; cbn [filter In]; [simpl; split; [intros []|lia]|].
  destruct (cb_eqb c (CResume p)) eqn:E; cbn [List.length].
  - apply cb_eqb_eq in E. subst c. split; [lia|auto].
  - rewrite <- IH. split; [intros [->|]; auto|auto]. simpl in E. rewrite Nat.eqb_refl in E. discriminate.
Qed.
Lemma wsum_cb p ev l : wsum p (map (WCb ev) l) = cres p l.
Proof.
  unfold wsum, cres. induction l as [|c l IH]; simpl; [reflexivity|]. rewrite IH.
  destruct c as [q|q|q]; simpl; try reflexivity. destruct (Nat.eqb q p); reflexivity.
Qed.
Lemma wsum_In p l w : In w l -> tokW p w <= wsum p l.
Proof.
  unfold wsum. induction l as [|x l IH]; simpl; [intros []|]. intros [->|H]; [lia|]. specialize (IH H). lia.
Qed.
Lemma esum_In p l i e : nth_error l i = Some e -> cres p (cbs_of e) <= esum p l.
Proof.
  unfold esum. revert i. induction l as [|x l IH]; intros [|i] H; simpl in *; try discriminate; [injection H as ->; lia|].
  specialize (IH i H). lia.
Qed.
Lemma remove_cres p l : cres p (remove_cb (CResume p) l) = cres p l - 1.
Proof.
  unfold cres. induction l as [|c l IH]; cbn [remove_cb filter List.length]; [reflexivity|].
  destruct (cb_eqb c (CResume p)) eqn:E; cbn [filter List.length]; [lia|]. rewrite E. exact IH.
Qed.
Lemma remove_cres_other p q l : p <> q -> cres q (remove_cb (CResume p) l) = cres q l.
Proof.
  intros N. unfold cres. induction l as [|c l IH]; cbn [remove_cb filter List.length]; [reflexivity|].
  destruct (cb_eqb c (CResume p)) eqn:E; cbn [filter List.length].
  - apply cb_eqb_eq in E. subst c. simpl. destruct (Nat.eqb_spec p q); [congruence|]. reflexivity.
  - destruct (cb_eqb c (CResume q)); cbn [List.length]; rewrite IH; reflexivity.
Qed.
Lemma remove_cb_In c d l : In d (remove_cb c l) -> In d l.
Proof.
  induction l as [|x l IH]; cbn [remove_cb]; [auto|]. destruct (cb_eqb x c); cbn [In]; tauto.
Qed.

(** ** The invariant *)

Definition role_at (ev : nat) (r : role) (S : sim) : Prop := exists e, event_at ev S = Some e /\ erole e = r.
Definition proc_at (p : nat) (S : sim) : option prc := nth_error (prs S) p.

(** Codes of processes that wait for an event at a known time. *)
Definition due (c : code) : option Z := match c with KLocal _ _ e _ | KEnvP e => Some (etime e) | _ => None end.
(** What some processes wait for. *)
Definition fits (S : sim) (c : code) (ev : nat) : Prop :=
  match c with
  | KLocal _ _ e _ | KEnvP e => role_at ev (RTime (etime e)) S
  | KExtraPro n pro | KExtraCont n pro => exists r, proc_at pro S = Some r /\ pkind r = Some (GLocal false n) /\ pown r = ev
  | KProcPro _ => exists pro r, proc_at pro S = Some r /\ pkind r = Some (GLocal true PROCEDURAL) /\ pown r = ev
  | KEnvWait pro _ => exists r, proc_at pro S = Some r /\ pkind r = Some GEnvP
  | _ => True
  end.
(** Processes that can be interrupted. *)
Definition soft (k : option pkind_) : Prop :=
  match k with Some (GExtra _) | Some (GLocal false _) | Some GEnvP => True | _ => False end.
Definition envy (k : option pkind_) : Prop := match k with Some GEnv | Some GEnvP => True | _ => False end.

Record Inv (S : sim) : Prop := MkInv {
  i_heap : forall q, In q (heap S) -> (now S <= qtime q)%Z /\
             exists e, event_at (qev q) S = Some e /\ forall t, erole e = RTime t -> qtime q = t;
  i_cbw : forall ev c, In (WCb ev c) (todo S) -> exists e, event_at ev S = Some e /\ forall t, erole e = RTime t -> now S = t;
  i_res : forall ev e p, event_at ev S = Some e -> In (CResume p) (cbs_of e) -> exists r, proc_at p S = Some r /\ ptarget r = ev;
  i_resw : forall ev p, In (WCb ev (CResume p)) (todo S) -> exists r, proc_at p S = Some r /\ ptarget r = ev;
  i_tok : forall p, tokE p S + tokT p S <= (if Nat.ltb p (List.length (prs S)) then 1 else 0);
  i_int : forall ev e p, event_at ev S = Some e -> In (CInt p) (cbs_of e) -> erole e = RInt p;
  i_role : forall ev e p, event_at ev S = Some e -> erole e = RInt p ->
             (ecbs e = None \/ ecbs e = Some [CInt p]) /\ exists r, proc_at p S = Some r /\ soft (pkind r);
  i_intw : forall ev p, In (WCb ev (CInt p)) (todo S) -> todo S = [WCb ev (CInt p); WEnd ev] /\ role_at ev (RInt p) S;
  i_chk : forall ev e c, event_at ev S = Some e -> In (CCheck c) (cbs_of e) -> role_at c RCond S;
  i_chkw : forall ev c, In (WCb ev (CCheck c)) (todo S) -> role_at c RCond S;
  i_own : forall p r, proc_at p S = Some r ->
             exists e, event_at (pown r) S = Some e /\ erole e = ROwn p /\ (evalue e = None <-> pcode r <> KEnd);
  i_kind : forall p r, proc_at p S = Some r -> (pcode r = KEnd \/ pkind r = kind_of (pcode r)) /\ pkind r <> None;
  i_fits : forall p r, proc_at p S = Some r -> fits S (pcode r) (ptarget r);
  i_due : forall p r v t, proc_at p S = Some r -> In (WRun p (Good v)) (todo S) -> due (pcode r) = Some t -> now S = t;
  i_pact : role_at (pact S) RAct S;
  i_acts : forall n ev, dget (acts S) n = Some ev -> role_at ev RAct S;
  i_extras : forall n p, dget (extras S) n = Some p -> exists r, proc_at p S = Some r /\ pkind r = Some (GExtra n);
  i_eact : hasenv S = true -> role_at (eact S) RAct S;
  i_env : forall p r, proc_at p S = Some r -> envy (pkind r) -> hasenv S = true;
  i_log : StronglySorted Z.le (map fst (log S)) /\ Forall (fun te => fst te = etime (snd te) /\ (fst te <= now S)%Z) (log S) }.

(** ** What the code of a process does to the rest *)

(** Values of events other than the ends of processes. *)
Definition plainv (e : evt) : Prop :=
  (forall g, evalue e <> Some (Good (XCont g))) /\ (forall t, erole e = RTime t -> evalue e = Some (Good XUnit)).

Section Code.
(** Processes that the code of another process starts. *)
Variable X : code -> Prop.

Record frame (S S' : sim) : Prop := MkFrame {
  f_now : now S' = now S;
  f_todo : todo S' = todo S;
  f_dead : dead S' = dead S;
  f_log : exists l, log S' = log S ++ l /\ Forall (fun te => quiet (snd te)) l;
  f_hasenv : hasenv S' = hasenv S;
  f_evs : forall ev e, event_at ev S = Some e -> exists e', event_at ev S' = Some e' /\ erole e' = erole e /\
            (evalue e' = evalue e \/ erole e = RAct \/ erole e = RCond) /\ (ecbs e' = None <-> ecbs e = None);
  f_vals : forall ev e', event_at ev S' = Some e' ->
             (exists e, event_at ev S = Some e /\ erole e' = erole e /\ evalue e' = evalue e) \/ plainv e';
  f_prs : exists new, prs S' = prs S ++ new /\ Forall (fun r => X (pcode r)) new;
  f_tok : forall p, p < List.length (prs S) -> tokE p S' = tokE p S;
  f_ss : rely (ss S) (ss S') }.

Lemma frame_refl S : frame S S.
Proof.
  constructor; try reflexivity; [exists []; rewrite app_nil_r; auto| |eauto|exists []; rewrite app_nil_r; auto|apply rely_refl].
  intros ev e H. exists e. repeat split; auto.
Qed.
Lemma frame_trans S1 S2 S3 : frame S1 S2 -> frame S2 S3 -> frame S1 S3.
Proof.
  intros H1 H2. constructor.
  - rewrite (f_now _ _ H2). apply H1.
  - rewrite (f_todo _ _ H2). apply H1.
  - rewrite (f_dead _ _ H2). apply H1.
  - destruct (f_log _ _ H1) as (n1 & E1 & F1). destruct (f_log _ _ H2) as (n2 & E2 & F2).
    exists (n1 ++ n2). rewrite E2, E1, app_assoc. split; [reflexivity|]. apply Forall_app. auto.
  - rewrite (f_hasenv _ _ H2). apply H1.
  - intros ev e H. destruct (f_evs _ _ H1 _ _ H) as (e1 & E1 & R1 & V1 & C1).
    destruct (f_evs _ _ H2 _ _ E1) as (e2 & E2 & R2 & V2 & C2). exists e2. split; [exact E2|]. split; [congruence|]. split.
    + rewrite R1 in V2. destruct V1 as [V1|V1]; [|auto]. destruct V2 as [V2|V2]; [left; congruence|auto].
    + tauto.
  - intros ev e' H. destruct (f_vals _ _ H2 _ _ H) as [(e1 & E1 & R1 & V1)|P]; [|auto].
    destruct (f_vals _ _ H1 _ _ E1) as [(e0 & E0 & R0 & V0)|[P1 P2]]; [left; exists e0; repeat split; congruence|right].
    split; [rewrite V1; exact P1|rewrite R1, V1; exact P2].
  - destruct (f_prs _ _ H1) as (n1 & E1 & F1). destruct (f_prs _ _ H2) as (n2 & E2 & F2).
    exists (n1 ++ n2). rewrite E2, E1, app_assoc. split; [reflexivity|]. apply Forall_app. auto.
  - intros p Hp. rewrite (f_tok _ _ H2), (f_tok _ _ H1); auto.
    destruct (f_prs _ _ H1) as (n1 & E1 & _). rewrite E1, app_length. lia.
  - eapply rely_trans; [apply H1|apply H2].
Qed.
Lemma frame_proc S S' p r : frame S S' -> proc_at p S = Some r -> proc_at p S' = Some r.
Proof.
  intros H E. destruct (f_prs _ _ H) as (n & En & _). unfold proc_at in *. rewrite En, nth_error_app1; [exact E|].
  apply nth_error_Some. congruence.
Qed.
Lemma frame_role S S' ev r : frame S S' -> role_at ev r S -> role_at ev r S'.
Proof. intros H (e & E & R). destruct (f_evs _ _ H _ _ E) as (e' & E' & R' & _). exists e'. split; congruence. Qed.

Definition tri {A} (m : M A) (S : sim) (Q : A -> sim -> Prop) : Prop :=
  let '(S', r) := m S in Inv S' /\ frame S S' /\ match r with inl a => Q a S' | inr _ => True end.

Lemma tri_bind {A B} (m : M A) (k : A -> M B) S (Q1 : A -> sim -> Prop) (Q2 : B -> sim -> Prop) :
  tri m S Q1 -> (forall a S', Inv S' -> frame S S' -> Q1 a S' -> tri (k a) S' Q2) -> tri (bind m k) S Q2.
Proof.
  unfold tri, bind. destruct (m S) as [S1 [a|t]]; intros (H1 & H2 & H3) Hk; [|auto].
  specialize (Hk a S1 H1 H2 H3). destruct (k a S1) as [S2 r]. destruct Hk as (K1 & K2 & K3).
  split; [exact K1|]. split; [eapply frame_trans; eauto|exact K3].
Qed.
Lemma tri_conseq {A} (m : M A) S (Q Q' : A -> sim -> Prop) : tri m S Q -> (forall a S', frame S S' -> Q a S' -> Q' a S') -> tri m S Q'.
Proof. unfold tri. destruct (m S) as [S' [a|t]]; intros (H1 & H2 & H3) H; auto. Qed.
Lemma tri_ret {A} (a : A) S (Q : A -> sim -> Prop) : Inv S -> Q a S -> tri (ret a) S Q.
Proof. intros. unfold tri, ret. split; [assumption|]. split; [apply frame_refl|assumption]. Qed.
Lemma tri_throw {A} t S (Q : A -> sim -> Prop) : Inv S -> tri (throw t) S Q.
Proof. intros. unfold tri, throw. split; [assumption|]. split; [apply frame_refl|exact I]. Qed.
Lemma tri_get S (Q : sim -> sim -> Prop) : Inv S -> Q S S -> tri get S Q.
Proof. intros. unfold tri, get. split; [assumption|]. split; [apply frame_refl|assumption]. Qed.

(** Changes that do not concern events, processes and the queue. *)
Lemma Inv_same S S' : Inv S ->
  now S' = now S -> heap S' = heap S -> evs S' = evs S -> prs S' = prs S -> todo S' = todo S -> pact S' = pact S -> acts S' = acts S ->
  extras S' = extras S -> hasenv S' = hasenv S -> eact S' = eact S -> log S' = log S -> Inv S'.
Proof.
  intros H. destruct S, S'. simpl. intros -> -> -> -> -> -> -> -> -> -> ->.
  destruct H. constructor; assumption.
Qed.
Lemma frame_same S S' : now S' = now S -> evs S' = evs S -> prs S' = prs S -> todo S' = todo S -> dead S' = dead S -> hasenv S' = hasenv S ->
  log S' = log S -> rely (ss S) (ss S') -> frame S S'.
Proof.
  intros H1 H2 H3 H4 H5 H6 H7 H8. constructor; auto.
  - exists []. rewrite app_nil_r. auto.
  - intros ev e H. exists e. unfold event_at in *. rewrite H2. repeat split; auto.
  - intros ev e H. left. exists e. unfold event_at in *. rewrite <- H2. auto.
  - exists []. rewrite app_nil_r. auto.
  - intros. unfold tokE. rewrite H2. reflexivity.
Qed.
Lemma tri_upd f S (Q : unit -> sim -> Prop) : Inv S -> now (f S) = now S -> heap (f S) = heap S -> evs (f S) = evs S -> prs (f S) = prs S -> todo (f S) = todo S ->
  pact (f S) = pact S -> acts (f S) = acts S -> extras (f S) = extras S -> hasenv (f S) = hasenv S -> eact (f S) = eact S -> log (f S) = log S ->
  dead (f S) = dead S -> rely (ss S) (ss (f S)) -> Q tt (f S) -> tri (upd_ f) S Q.
Proof.
  intros. unfold tri, upd_. split; [eapply Inv_same; eauto|]. split; [apply frame_same; auto|assumption].
Qed.

(** ** Events *)

Lemma nth_snoc {A} (l : list A) x i y : nth_error (l ++ [x]) i = Some y -> nth_error l i = Some y \/ (i = List.length l /\ y = x).
Proof.
  intros H. destruct (Nat.lt_ge_cases i (List.length l)) as [L|L].
  - left. rewrite nth_error_app1 in H; auto.
  - right. rewrite nth_error_app2 in H by lia. destruct (i - List.length l) as [|k] eqn:E; simpl in H.
    + injection H as <-. split; [lia|reflexivity].
    + destruct k; discriminate.
Qed.
Lemma nth_snoc_old {A} (l : list A) x i y : nth_error l i = Some y -> nth_error (l ++ [x]) i = Some y.
Proof. intros H. rewrite nth_error_app1; [exact H|]. apply nth_error_Some. congruence. Qed.
Lemma nth_snoc_new {A} (l : list A) x : nth_error (l ++ [x]) (List.length l) = Some x.
Proof. rewrite nth_error_app2 by lia. rewrite Nat.sub_diag. reflexivity. Qed.

Lemma Inv_add_event S e : Inv S ->
  (ecbs e = Some [] /\ forall p, erole e <> RInt p) \/
  (exists p r, erole e = RInt p /\ ecbs e = Some [CInt p] /\ proc_at p S = Some r /\ soft (pkind r)) ->
  Inv (set_evs (evs S ++ [e]) S).
Proof.
  intros H He. set (S' := set_evs (evs S ++ [e]) S).
  assert (Old : forall ev x, event_at ev S = Some x -> event_at ev S' = Some x) by (intros; apply nth_snoc_old; assumption).
  assert (Inv' : forall ev x, event_at ev S' = Some x -> event_at ev S = Some x \/ (ev = List.length (evs S) /\ x = e)) by (intros; apply nth_snoc; assumption).
  assert (Ro : forall ev r, role_at ev r S -> role_at ev r S') by (intros ev r (x & Hx & R); exists x; auto).
  assert (Nr : forall p, cres p (cbs_of e) = 0).
  { intros p. unfold cbs_of. destruct He as [(-> & _)|(q & r & _ & -> & _)]; reflexivity. }
  constructor.
  - intros q Hq. destruct (i_heap _ H q Hq) as (H1 & x & Hx & H2). split; [exact H1|]. exists x. auto.
  - intros ev c Hc. destruct (i_cbw _ H ev c Hc) as (x & Hx & H2). exists x. auto.
  - intros ev x p Hx Hp. destruct (Inv' _ _ Hx) as [Hx'|[-> ->]]; [apply (i_res _ H _ _ _ Hx' Hp)|].
    apply cres_In in Hp. rewrite Nr in Hp. lia.
  - apply (i_resw _ H).
  - intros p. pose proof (i_tok _ H p) as T. unfold tokE, tokT in *. cbn [evs set_evs S' todo prs] in *. rewrite esum_app.
    unfold esum at 2. simpl. rewrite Nr. lia.
  - intros ev x p Hx Hp. destruct (Inv' _ _ Hx) as [Hx'|[-> ->]]; [apply (i_int _ H _ _ _ Hx' Hp)|].
    unfold cbs_of in Hp. destruct He as [(E & _)|(q & r & R & E & _)]; rewrite E in Hp; [destruct Hp|]. destruct Hp as [Hp|[]]. congruence.
  - intros ev x p Hx Hr. destruct (Inv' _ _ Hx) as [Hx'|[-> ->]]; [apply (i_role _ H _ _ _ Hx' Hr)|].
    destruct He as [(_ & E)|(q & r & R & E & P & So)]; [elim (E p Hr)|]. assert (q = p) by congruence. subst q. split; [auto|]. exists r. auto.
  - intros ev p Hp. destruct (i_intw _ H _ _ Hp) as (T & R). auto.
  - intros ev x c Hx Hc. apply Ro. destruct (Inv' _ _ Hx) as [Hx'|[-> ->]]; [apply (i_chk _ H _ _ _ Hx' Hc)|].
    unfold cbs_of in Hc. destruct He as [(E & _)|(q & r & R & E & _)]; rewrite E in Hc; [destruct Hc|]. destruct Hc as [Hc|[]]. discriminate.
  - intros ev c Hc. apply Ro. apply (i_chkw _ H _ _ Hc).
  - intros p r Hp. destruct (i_own _ H _ _ Hp) as (x & Hx & R). exists x. auto.
  - apply (i_kind _ H).
  - intros p r Hp. pose proof (i_fits _ H _ _ Hp) as F. destruct (pcode r); cbn [fits] in *; auto.
  - apply (i_due _ H).
  - apply Ro, (i_pact _ H).
  - intros n ev Hn. apply Ro. apply (i_acts _ H _ _ Hn).
  - apply (i_extras _ H).
  - intros Hh. apply Ro. apply (i_eact _ H Hh).
  - apply (i_env _ H).
  - apply (i_log _ H).
Qed.
Lemma frame_add_event S e : (forall p, cres p (cbs_of e) = 0) -> plainv e -> frame S (set_evs (evs S ++ [e]) S).
Proof.
  intros Nr Pe. constructor; try reflexivity.
  - exists []. rewrite app_nil_r. auto.
  - intros ev x Hx. exists x. split; [apply nth_snoc_old; exact Hx|]. repeat split; auto.
  - intros ev x Hx. apply nth_snoc in Hx. destruct Hx as [Hx|[-> ->]]; [left; exists x; auto|auto].
  - exists []. rewrite app_nil_r. auto.
  - intros p _. unfold tokE. cbn [evs set_evs]. rewrite esum_app. unfold esum at 2. simpl. rewrite Nr. lia.
  - apply rely_refl.
Qed.

(** A change of an event that exists. *)
Lemma Inv_upd_event S ev e e' : Inv S -> event_at ev S = Some e -> erole e' = erole e ->
  (ecbs e' = ecbs e \/ exists l c, ecbs e = Some l /\ ecbs e' = Some (l ++ [CCheck c]) /\ role_at c RCond S /\ forall p, erole e <> RInt p) ->
  (evalue e' = evalue e \/ forall p, erole e <> ROwn p) ->
  Inv (set_evs (upd (evs S) ev e') S).
Proof.
  intros H He Hr Hc Hv. set (S' := set_evs (upd (evs S) ev e') S).
  assert (At : forall i, event_at i S' = if Nat.eqb i ev then Some e' else event_at i S).
  { intros i. unfold event_at, S'. cbn [evs set_evs]. destruct (Nat.eqb_spec i ev) as [->|N]; [apply (upd_same _ _ _ e); exact He|apply upd_other; exact N]. }
  assert (Old : forall i x, event_at i S = Some x -> exists x', event_at i S' = Some x' /\ erole x' = erole x).
  { intros i x Hx. rewrite At. destruct (Nat.eqb_spec i ev) as [->|N]; [exists e'; split; [reflexivity|congruence]|exists x; auto]. }
  assert (Ro : forall i r, role_at i r S -> role_at i r S').
  { intros i r (x & Hx & R). destruct (Old _ _ Hx) as (x' & Hx' & R'). exists x'. split; congruence. }
  assert (Cb : forall c, In c (cbs_of e') -> In c (cbs_of e) \/ exists d, c = CCheck d /\ role_at d RCond S).
  { intros c. unfold cbs_of. destruct Hc as [->|(l & d & -> & -> & Rd & _)]; [auto|]. rewrite in_app_iff. intros [Hl|[<-|[]]]; [auto|right; eauto]. }
  assert (Cr : forall p, cres p (cbs_of e) = cres p (cbs_of e')).
  { intros p. unfold cbs_of. destruct Hc as [->|(l & d & -> & -> & _)]; [reflexivity|]. rewrite cres_app. cbn. lia. }
  constructor.
  - intros q Hq. destruct (i_heap _ H q Hq) as (H1 & x & Hx & H2). split; [exact H1|]. destruct (Old _ _ Hx) as (x' & Hx' & R). exists x'. rewrite R. auto.
  - intros i c Hi. destruct (i_cbw _ H i c Hi) as (x & Hx & H2). destruct (Old _ _ Hx) as (x' & Hx' & R). exists x'. rewrite R. auto.
  - intros i x p Hx Hp. rewrite At in Hx. destruct (Nat.eqb_spec i ev) as [->|N]; [|apply (i_res _ H _ _ _ Hx Hp)].
    injection Hx as <-. destruct (Cb _ Hp) as [Hp'|(d & D & _)]; [apply (i_res _ H _ _ _ He Hp')|discriminate].
  - apply (i_resw _ H).
  - intros p. pose proof (i_tok _ H p) as T. unfold tokE, tokT in *. cbn [evs set_evs S' todo prs] in *.
    rewrite (esum_same _ _ _ e); auto.
  - intros i x p Hx Hp. rewrite At in Hx. destruct (Nat.eqb_spec i ev) as [->|N]; [|apply (i_int _ H _ _ _ Hx Hp)].
    injection Hx as <-. rewrite Hr. destruct (Cb _ Hp) as [Hp'|(d & D & _)]; [apply (i_int _ H _ _ _ He Hp')|discriminate].
  - intros i x p Hx Hp. rewrite At in Hx. destruct (Nat.eqb_spec i ev) as [->|N]; [|apply (i_role _ H _ _ _ Hx Hp)].
    injection Hx as <-. rewrite Hr in Hp. destruct (i_role _ H _ _ _ He Hp) as (C & P). split; [|exact P].
    destruct Hc as [->|(l & d & _ & _ & _ & Nn)]; [exact C|elim (Nn p Hp)].
  - intros i p Hp. destruct (i_intw _ H _ _ Hp) as (T & R). auto.
  - intros i x c Hx Hi. apply Ro. rewrite At in Hx. destruct (Nat.eqb_spec i ev) as [->|N]; [|apply (i_chk _ H _ _ _ Hx Hi)].
    injection Hx as <-. destruct (Cb _ Hi) as [Hp'|(d & D & Rd)]; [apply (i_chk _ H _ _ _ He Hp')|]. injection D as ->. exact Rd.
  - intros i c Hi. apply Ro. apply (i_chkw _ H _ _ Hi).
  - intros p r Hp. destruct (i_own _ H _ _ Hp) as (x & Hx & R & V). rewrite At. destruct (Nat.eqb_spec (pown r) ev) as [E|N]; [|exists x; auto].
    rewrite E in Hx. assert (x = e) by congruence. subst x. exists e'. split; [reflexivity|]. split; [congruence|].
    destruct Hv as [->|Hv]; [exact V|]. elim (Hv p). congruence.
  - apply (i_kind _ H).
  - intros p r Hp. pose proof (i_fits _ H _ _ Hp) as F. destruct (pcode r); cbn [fits] in *; auto.
  - apply (i_due _ H).
  - apply Ro, (i_pact _ H).
  - intros n i Hn. apply Ro. apply (i_acts _ H _ _ Hn).
  - apply (i_extras _ H).
  - intros Hh. apply Ro. apply (i_eact _ H Hh).
  - apply (i_env _ H).
  - apply (i_log _ H).
Qed.
Lemma frame_upd_event S ev e e' : event_at ev S = Some e -> erole e' = erole e ->
  (forall p, cres p (cbs_of e) = cres p (cbs_of e')) -> (ecbs e' = None <-> ecbs e = None) ->
  (evalue e' = evalue e \/ plainv e' /\ (erole e = RAct \/ erole e = RCond)) -> frame S (set_evs (upd (evs S) ev e') S).
Proof.
  intros He Hr Hc Hn Hv. constructor; try reflexivity.
  - exists []. rewrite app_nil_r. auto.
  - intros i x Hx. unfold event_at in *. cbn [evs set_evs]. destruct (Nat.eq_dec i ev) as [->|N].
    + assert (x = e) by congruence. subst x. exists e'. rewrite (upd_same _ _ _ e He). tauto.
    + exists x. rewrite upd_other by exact N. split; [exact Hx|]. repeat split; auto.
  - intros i x Hx. unfold event_at in *. cbn [evs set_evs] in Hx. destruct (Nat.eq_dec i ev) as [->|N].
    + rewrite (upd_same _ _ _ e He) in Hx. injection Hx as <-. destruct Hv as [Hv|[Hv _]]; [left; exists e; auto|auto].
    + rewrite upd_other in Hx by exact N. left. exists x. auto.
  - exists []. rewrite app_nil_r. auto.
  - intros p _. unfold tokE. cbn [evs set_evs]. apply (esum_same _ _ _ e); auto.
  - apply rely_refl.
Qed.

Lemma Inv_schedule S prio d ev e : Inv S -> (0 <= d)%Z -> event_at ev S = Some e -> (forall t, erole e = RTime t -> (now S + d)%Z = t) ->
  Inv (set_queue (Datatypes.S (eid S)) (heap S ++ [MkQ (now S + d) prio (eid S) ev]) S).
Proof.
  intros H Hd He Ht. constructor; try apply H.
  intros q Hq. cbn [heap set_queue] in Hq. apply in_app_iff in Hq. destruct Hq as [Hq|[<-|[]]]; [apply (i_heap _ H q Hq)|].
  cbn [qtime qev now set_queue]. split; [lia|]. exists e. auto.
Qed.

Lemma Inv_spawn S c : Inv S -> (exists k, kind_of c = Some k) -> due c = None -> (forall S ev, fits S c ev) -> (envy (kind_of c) -> hasenv S = true) ->
  let own := List.length (evs S) in let p := List.length (prs S) in
  Inv (set_prs (prs S ++ [MkPrc (kind_of c) own (Datatypes.S own) c])
        (set_evs ((evs S ++ [MkEvt (ROwn p) None false (Some [])]) ++ [MkEvt (RInit p) (Some (Good XUnit)) false (Some [CResume p])]) S)).
Proof.
  intros H (k & Hk) Hd Hf Hh own p.
  assert (H1 : Inv (set_evs (evs S ++ [MkEvt (ROwn p) None false (Some [])]) S)).
  { apply Inv_add_event; [exact H|]. left. split; [reflexivity|]. discriminate. }
  set (S1 := set_evs (evs S ++ [MkEvt (ROwn p) None false (Some [])]) S) in H1.
  set (init := MkEvt (RInit p) (Some (Good XUnit)) false (Some [CResume p])).
  set (new := MkPrc (kind_of c) own (Datatypes.S own) c).
  set (S' := set_prs _ _).
  assert (L1 : List.length (evs S1) = Datatypes.S own) by (unfold S1; cbn [evs set_evs]; rewrite app_length; simpl; lia).
  assert (Old : forall i x, event_at i S1 = Some x -> event_at i S' = Some x) by (intros; apply nth_snoc_old; assumption).
  assert (Iv : forall i x, event_at i S' = Some x -> event_at i S1 = Some x \/ (i = Datatypes.S own /\ x = init)).
  { intros i x Hx. apply nth_snoc in Hx. rewrite <- L1. exact Hx. }
  assert (Ro : forall i r, role_at i r S1 -> role_at i r S') by (intros i r (x & Hx & R); exists x; auto).
  assert (Po : forall i r, proc_at i S1 = Some r -> proc_at i S' = Some r) by (intros; apply nth_snoc_old; assumption).
  assert (Pv : forall i r, proc_at i S' = Some r -> proc_at i S1 = Some r \/ (i = p /\ r = new)) by (intros i r Hr; apply nth_snoc in Hr; exact Hr).
  assert (Pn : proc_at p S' = Some new) by apply nth_snoc_new.
  assert (T0 : forall q, p <= q -> tokE q S1 = 0 /\ tokT q S1 = 0).
  { intros q Hq. pose proof (i_tok _ H1 q) as T. revert T. destruct (Nat.ltb_spec q (List.length (prs S1))) as [L|L]; [|lia].
    change (prs S1) with (prs S) in L. fold p in L. lia. }
  assert (Nw : forall q o, In (WRun q o) (todo S1) -> q <> p).
  { intros q o Hq ->. destruct (T0 p) as (_ & T); [lia|]. pose proof (wsum_In p _ _ Hq) as W. cbn [tokW] in W. rewrite Nat.eqb_refl in W. unfold tokT in T, W. lia. }
  constructor.
  - intros q Hq. destruct (i_heap _ H1 q Hq) as (A & x & Hx & B). split; [exact A|]. exists x. auto.
  - intros i d Hi. destruct (i_cbw _ H1 i d Hi) as (x & Hx & B). exists x. auto.
  - intros i x q Hx Hq. destruct (Iv _ _ Hx) as [Hx'|[-> ->]].
    + destruct (i_res _ H1 _ _ _ Hx' Hq) as (r & Hr & E). exists r. auto.
    + destruct Hq as [Hq|[]]. injection Hq as <-. exists new. auto.
  - intros i q Hq. destruct (i_resw _ H1 _ _ Hq) as (r & Hr & E). exists r. auto.
  - intros q. pose proof (i_tok _ H1 q) as T. unfold tokE, tokT in *. cbn [evs set_evs S' todo prs set_prs] in *.
    change (evs S ++ [MkEvt (ROwn p) None false (Some [])]) with (evs S1). change (todo S) with (todo S1).
    rewrite esum_app, app_length. unfold esum at 2. cbn [map list_sum fold_right cbs_of ecbs init]. cbn [List.length].
    change (List.length (prs S1)) with p in T. change (List.length (prs S)) with p.
    destruct (Nat.eq_dec q p) as [->|N].
    + destruct (T0 p) as (A & B); [lia|]. unfold tokE, tokT in A, B. rewrite A, B. destruct (Nat.ltb_spec p (p + 1)); [|lia].
      unfold cres. cbn. rewrite Nat.eqb_refl. cbn. lia.
    + assert (E : cres q [CResume p] = 0) by (unfold cres; cbn; destruct (Nat.eqb_spec p q); [congruence|reflexivity]). rewrite E.
      revert T. destruct (Nat.ltb_spec q p), (Nat.ltb_spec q (p + 1)); lia.
  - intros i x q Hx Hq. destruct (Iv _ _ Hx) as [Hx'|[-> ->]]; [apply (i_int _ H1 _ _ _ Hx' Hq)|]. destruct Hq as [Hq|[]]. discriminate.
  - intros i x q Hx Hq. destruct (Iv _ _ Hx) as [Hx'|[-> ->]]; [|discriminate].
    destruct (i_role _ H1 _ _ _ Hx' Hq) as (C & r & Hr & So). split; [exact C|]. exists r. auto.
  - intros i q Hq. destruct (i_intw _ H1 _ _ Hq) as (T & R). auto.
  - intros i x d Hx Hi. apply Ro. destruct (Iv _ _ Hx) as [Hx'|[-> ->]]; [apply (i_chk _ H1 _ _ _ Hx' Hi)|]. destruct Hi as [Hi|[]]. discriminate.
  - intros i d Hi. apply Ro. apply (i_chkw _ H1 _ _ Hi).
  - intros q r Hq. destruct (Pv _ _ Hq) as [Hq'|[-> ->]].
    + destruct (i_own _ H1 _ _ Hq') as (x & Hx & R). exists x. auto.
    + exists (MkEvt (ROwn p) None false (Some [])). split; [apply Old; apply nth_snoc_new|]. split; [reflexivity|].
      cbn. split; [|reflexivity]. intros _ E. rewrite E in Hk. discriminate.
  - intros q r Hq. destruct (Pv _ _ Hq) as [Hq'|[-> ->]]; [apply (i_kind _ H1 _ _ Hq')|]. cbn. split; [auto|congruence].
  - intros q r Hq. destruct (Pv _ _ Hq) as [Hq'|[-> ->]]; [|apply Hf].
    pose proof (i_fits _ H1 _ _ Hq') as F. destruct (pcode r); cbn [fits] in *; auto.
    + destruct F as (pro & r' & A & B). exists pro, r'. auto.
    + destruct F as (r' & A & B). exists r'. auto.
    + destruct F as (r' & A & B). exists r'. auto.
    + destruct F as (r' & A & B). exists r'. auto.
  - intros q r v t Hq Hw Hdu. destruct (Pv _ _ Hq) as [Hq'|[-> ->]]; [apply (i_due _ H1 _ _ _ _ Hq' Hw Hdu)|].
    elim (Nw _ _ Hw eq_refl).
  - apply Ro, (i_pact _ H1).
  - intros n i Hn. apply Ro. apply (i_acts _ H1 _ _ Hn).
  - intros n q Hn. destruct (i_extras _ H1 _ _ Hn) as (r & Hr & E). exists r. auto.
  - intros Hx. apply Ro. apply (i_eact _ H1 Hx).
  - intros q r Hq He. destruct (Pv _ _ Hq) as [Hq'|[-> ->]]; [apply (i_env _ H1 _ _ Hq' He)|]. apply Hh. exact He.
  - apply (i_log _ H1).
Qed.

(** ** The operations of simpy *)

Lemma frame_queue S n h : frame S (set_queue n h S).
Proof. apply frame_same; try reflexivity. apply rely_refl. Qed.

Definition light (r : role) : Prop := r = RAct \/ r = RCond.
Lemma light_int r p : light r -> r <> RInt p.
Proof. intros [->| ->]; discriminate. Qed.
Lemma light_plain r v d c : light r -> (forall g, v <> Some (Good (XCont g))) -> plainv (MkEvt r v d c).
Proof. intros [->| ->] H; split; cbn; auto; discriminate. Qed.
Lemma light_dec r : light r -> r = RAct \/ r = RCond.
Proof. exact (fun H => H). Qed.
Lemma tri_new_event r S (Q : nat -> sim -> Prop) : Inv S -> light r ->
  (forall ev S', ev = List.length (evs S) -> role_at ev r S' -> Q ev S') -> tri (new_event r) S Q.
Proof.
  intros H Hr HQ. unfold tri, new_event, mk_event.
  split; [apply Inv_add_event; [exact H|]; left; split; [reflexivity|intros p; apply light_int; exact Hr]|]. split; [apply frame_add_event; [reflexivity|apply light_plain; [exact Hr|discriminate]]|].
  apply HQ; [reflexivity|]. eexists. split; [apply nth_snoc_new|reflexivity].
Qed.

Lemma tri_succeed ev r S (Q : unit -> sim -> Prop) : Inv S -> role_at ev r S -> light r -> (forall S', Q tt S') -> tri (succeed ev) S Q.
Proof.
  intros H (e & He & Hr) Hl HQ. unfold tri, succeed, bind, get, trig. rewrite He. destruct (triggered e) eqn:Ht.
  - unfold throw. split; [exact H|]. split; [apply frame_refl|exact I].
  - unfold set_event, upd_, schedule. change (nth_error (evs S) ev) with (event_at ev S). rewrite He.
    set (e' := MkEvt (erole e) (Some (Good XUnit)) (edefused e) (ecbs e)).
    assert (Hi : Inv (set_evs (upd (evs S) ev e') S)).
    { apply (Inv_upd_event _ _ e); auto. right. intros p. rewrite Hr. destruct Hl as [->| ->]; discriminate. }
    assert (Hf : frame S (set_evs (upd (evs S) ev e') S)).
    { apply (frame_upd_event _ _ e); auto; [reflexivity|]. right. rewrite Hr. split; [|exact Hl]. apply light_plain; [rewrite Hr; exact Hl|discriminate]. }
    split; [|split; [|apply HQ]].
    + apply (Inv_schedule _ _ _ _ e'); [exact Hi|lia|apply (upd_same _ _ _ e); exact He|].
      intros t. cbn. rewrite Hr. destruct Hl as [->| ->]; discriminate.
    + eapply frame_trans; [exact Hf|apply frame_queue].
Qed.

Lemma tri_timeout d S (Q : nat -> sim -> Prop) : Inv S ->
  (forall ev S', role_at ev (RTime (now S + d)) S' -> processed ev S' = false -> Q ev S') -> tri (timeout d) S Q.
Proof.
  intros H HQ. unfold tri, timeout. destruct (Z.ltb_spec d 0) as [L|L].
  - unfold throw. split; [exact H|]. split; [apply frame_refl|exact I].
  - unfold bind, get, mk_event, schedule, upd_, ret.
    set (e := MkEvt (RTime (now S + d)) (Some (Good XUnit)) false (Some [])).
    assert (Hi : Inv (set_evs (evs S ++ [e]) S)) by (apply Inv_add_event; [exact H|]; left; split; [reflexivity|discriminate]).
    assert (Hn : event_at (List.length (evs S)) (set_evs (evs S ++ [e]) S) = Some e) by apply nth_snoc_new.
    split; [|split].
    + apply (Inv_schedule _ _ _ _ e Hi L Hn). intros t. cbn. congruence.
    + eapply frame_trans; [apply (frame_add_event S e); [reflexivity|split; cbn; congruence]|apply frame_queue].
    + apply HQ.
      * exists e. split; [exact Hn|reflexivity].
      * unfold processed. change (event_at _ _) with (event_at (List.length (evs S)) (set_evs (evs S ++ [e]) S)). rewrite Hn. reflexivity.
Qed.

(** The state after starting a process. *)
Definition spawned (c : code) (S : sim) : sim :=
  let own := List.length (evs S) in let p := List.length (prs S) in
  set_queue (Datatypes.S (eid S)) (heap S ++ [MkQ (now S + 0) URGENT (eid S) (Datatypes.S own)])
   (set_prs (prs S ++ [MkPrc (kind_of c) own (Datatypes.S own) c])
        (set_evs ((evs S ++ [MkEvt (ROwn p) None false (Some [])]) ++ [MkEvt (RInit p) (Some (Good XUnit)) false (Some [CResume p])]) S)).
Lemma spawn_eq c S : spawn c S = (spawned c S, inl (List.length (prs S))).
Proof.
  unfold spawn, bind, get, new_event, mk_event, upd_, schedule, ret. cbn [evs set_evs]. rewrite app_length. cbn [List.length].
  rewrite Nat.add_1_r. reflexivity.
Qed.
Lemma spawned_Inv c S : Inv S -> (exists k, kind_of c = Some k) -> due c = None -> (forall S ev, fits S c ev) -> (envy (kind_of c) -> hasenv S = true) ->
  Inv (spawned c S).
Proof.
  intros H Hk Hd Hf Hh. pose proof (Inv_spawn S c H Hk Hd Hf Hh) as H1. cbv zeta in H1. unfold spawned.
  eapply Inv_schedule with (S := set_prs _ (set_evs _ S)); [exact H1|lia| |].
  - unfold event_at. cbn [evs set_evs set_prs].
    match goal with |- nth_error (?l ++ [?x]) _ = _ => pose proof (nth_snoc_new l x) as N; rewrite app_length in N; cbn [List.length] in N; rewrite Nat.add_1_r in N; exact N end.
  - discriminate.
Qed.
Lemma spawned_new c S : proc_at (List.length (prs S)) (spawned c S) = Some (MkPrc (kind_of c) (List.length (evs S)) (Datatypes.S (List.length (evs S))) c).
Proof. apply nth_snoc_new. Qed.
Lemma spawned_own c S : event_at (List.length (evs S)) (spawned c S) = Some (MkEvt (ROwn (List.length (prs S))) None false (Some [])).
Proof. unfold event_at, spawned. cbn [evs set_evs set_prs set_queue]. apply nth_snoc_old. apply nth_snoc_new. Qed.
Lemma esum_new q p l : q <> p -> esum q ((l ++ [MkEvt (ROwn p) None false (Some [])]) ++ [MkEvt (RInit p) (Some (Good XUnit)) false (Some [CResume p])]) = esum q l.
Proof.
  intros N. rewrite !esum_app. unfold esum at 2 3. cbn. unfold cres. cbn. destruct (Nat.eqb_spec p q); [congruence|]. cbn. lia.
Qed.
Lemma frame_spawned c S : X c -> frame S (spawned c S).
Proof.
  intros Hm. constructor; try reflexivity.
  - exists []. rewrite app_nil_r. auto.
  - intros ev x Hx. exists x. split; [apply nth_snoc_old, nth_snoc_old; exact Hx|]. repeat split; auto.
  - intros ev x Hx. apply nth_snoc in Hx. destruct Hx as [Hx|[-> ->]]; [apply nth_snoc in Hx; destruct Hx as [Hx|[-> ->]]; [left; exists x; auto|]|];
      right; split; cbn; congruence.
  - eexists. split; [reflexivity|]. constructor; [exact Hm|constructor].
  - intros q Hq. unfold tokE. cbn [evs set_evs spawned set_prs set_queue]. apply esum_new. lia.
  - apply rely_refl.
Qed.
Lemma tri_spawn c S (Q : nat -> sim -> Prop) : Inv S -> X c -> (exists n g, c = KLocal0 false n g) \/ (exists e, c = KEnvP0 e /\ hasenv S = true) ->
  Q (List.length (prs S)) (spawned c S) -> tri (spawn c) S Q.
Proof.
  intros H Hx Hc HQ. unfold tri. rewrite spawn_eq. split; [|split; [|exact HQ]].
  - apply spawned_Inv; [exact H|..]; destruct Hc as [(n & g & ->)|(e & -> & Hh)]; cbn; eauto; intros _; intros; exact I || tauto.
  - apply frame_spawned. exact Hx.
Qed.

Lemma tri_interrupt a p S (Q : unit -> sim -> Prop) : Inv S -> (exists r, proc_at p S = Some r /\ soft (pkind r)) -> (forall S', Q tt S') ->
  tri (interrupt a p) S Q.
Proof.
  intros H (r & Hr & Hs) HQ. unfold tri, interrupt, bind, get. destruct (ended p S); [|destruct (Nat.eqb a p)].
  1,2: unfold throw; split; [exact H|]; split; [apply frame_refl|exact I].
  unfold mk_event, schedule, upd_. set (e := MkEvt (RInt p) (Some (Bad TInterrupt)) true (Some [CInt p])).
  assert (Hi : Inv (set_evs (evs S ++ [e]) S)) by (apply Inv_add_event; [exact H|]; right; exists p, r; auto).
  split; [|split; [|apply HQ]].
  - apply (Inv_schedule _ _ _ _ e Hi); [lia|apply nth_snoc_new|discriminate].
  - eapply frame_trans; [apply (frame_add_event S e); [reflexivity|split; cbn; congruence]|apply frame_queue].
Qed.

Lemma tri_add_check c ev r S (Q : unit -> sim -> Prop) : Inv S -> role_at c RCond S -> role_at ev r S -> (forall p, r <> RInt p) -> (forall S', Q tt S') ->
  tri (add_cb ev (CCheck c)) S Q.
Proof.
  intros H Hc (e & He & Hr) Hn HQ. unfold tri, add_cb, set_event, upd_. change (nth_error (evs S) ev) with (event_at ev S). rewrite He.
  split; [|split; [|apply HQ]].
  - apply (Inv_upd_event _ _ e); auto. destruct (ecbs e) as [l|] eqn:El; cbn; [|auto]. right. exists l, c. repeat split; auto. intros p. rewrite Hr. apply Hn.
  - apply (frame_upd_event _ _ e); auto; unfold cbs_of; cbn [ecbs]; destruct (ecbs e) as [l|]; try tauto.
    + intros p. rewrite cres_app. cbn. lia.
    + split; discriminate.
Qed.
Lemma tri_defuse ev S (Q : unit -> sim -> Prop) : Inv S -> (forall S', Q tt S') -> tri (defuse ev) S Q.
Proof.
  intros H HQ. unfold tri, defuse, set_event, upd_. change (nth_error (evs S) ev) with (event_at ev S).
  destruct (event_at ev S) as [e|] eqn:He; [|split; [exact H|split; [apply frame_refl|apply HQ]]].
  split; [|split; [|apply HQ]].
  - apply (Inv_upd_event _ _ e); auto.
  - apply (frame_upd_event _ _ e); auto; reflexivity.
Qed.
(** Giving a condition a value. *)
Lemma tri_fail c t S (Q : unit -> sim -> Prop) : Inv S -> role_at c RCond S -> (forall S', Q tt S') ->
  tri (set_event c (fun e => MkEvt (erole e) (Some (Bad t)) (edefused e) (ecbs e)) ;! schedule NORMAL 0 c) S Q.
Proof.
  intros H (e & He & Hr) HQ. unfold tri, bind, set_event, upd_, schedule. change (nth_error (evs S) c) with (event_at c S). rewrite He.
  set (e' := MkEvt (erole e) (Some (Bad t)) (edefused e) (ecbs e)).
  assert (Hi : Inv (set_evs (upd (evs S) c e') S)).
  { apply (Inv_upd_event _ _ e); auto. right. intros p. rewrite Hr. discriminate. }
  split; [|split; [|apply HQ]].
  - apply (Inv_schedule _ _ _ _ e'); [exact Hi|lia|apply (upd_same _ _ _ e); exact He|]. intros t'. cbn. rewrite Hr. discriminate.
  - eapply frame_trans; [apply (frame_upd_event S c e e'); auto; [reflexivity|]; right; rewrite Hr; split; [apply light_plain; [right; exact Hr|discriminate]|auto]|apply frame_queue].
Qed.
Lemma tri_check c ev S (Q : unit -> sim -> Prop) : Inv S -> role_at c RCond S -> (forall S', Q tt S') -> tri (check c ev) S Q.
Proof.
  intros H Hc HQ. unfold check. eapply tri_bind; [apply tri_get with (Q := fun a S' => a = S /\ S' = S); auto|].
  intros a S' _ _ [-> ->]. destruct (trig S c); [apply tri_ret; auto|]. destruct (event_at ev S) as [e|]; [|apply tri_ret; auto].
  assert (G : tri (succeed c) S Q) by (apply (tri_succeed c RCond); auto; right; reflexivity).
  destruct (evalue e) as [[v|t]|]; try exact G.
  eapply tri_bind; [apply tri_defuse with (Q := fun _ _ => True); auto|]. intros _ S1 H1 F1 _.
  apply tri_fail; auto. eapply frame_role; eauto.
Qed.
Lemma tri_watch c ev r S (Q : unit -> sim -> Prop) : Inv S -> role_at c RCond S -> role_at ev r S -> (forall p, r <> RInt p) -> (forall S', Q tt S') -> tri (watch c ev) S Q.
Proof.
  intros H Hc He Hr HQ. unfold watch. eapply tri_bind; [apply tri_get with (Q := fun a S' => a = S /\ S' = S); auto|].
  intros a S' _ _ [-> ->]. destruct (processed ev S); [apply tri_check; auto|eapply tri_add_check; eauto].
Qed.
Lemma tri_any_of a b ra rb S (Q : nat -> sim -> Prop) : Inv S -> role_at a ra S -> role_at b rb S -> (forall p, ra <> RInt p) -> (forall p, rb <> RInt p) ->
  (forall c S', frame S S' -> role_at c RCond S' -> Q c S') -> tri (any_of a b) S Q.
Proof.
  intros H Ha Hb Na Nb HQ. unfold any_of.
  eapply tri_bind; [apply tri_new_event with (Q := fun c S' => role_at c RCond S'); auto; right; reflexivity|]. intros c S1 H1 F1 Hc.
  eapply tri_bind; [apply (tri_watch c a ra) with (Q := fun _ _ => True); eauto using frame_role|]. intros _ S2 H2 F2 _.
  eapply tri_bind; [apply (tri_watch c b rb) with (Q := fun _ _ => True); eauto using frame_role|]. intros _ S3 H3 F3 _.
  apply tri_ret; [exact H3|]. apply HQ; [eapply frame_trans; [exact F1|]; eapply frame_trans; eauto|]. eauto using frame_role.
Qed.

(** ** The code of the simulation *)

Lemma tri_trivial {A} (m : M A) S (Q : A -> sim -> Prop) : tri m S Q -> tri m S (fun _ _ => True).
Proof. intros H. eapply tri_conseq; [exact H|auto]. Qed.
Ltac tri_get_ := eapply tri_bind; [apply tri_get with (Q := fun a S' => a = S' ); auto|].

Lemma Inv_ss x S : Inv S -> Inv (set_ss x S).
Proof. intros H. eapply Inv_same; eauto. Qed.
Lemma put_started_Inv l S : Inv S -> Inv (put_started l S).
Proof. intros H. unfold put_started. destruct (early S); eapply Inv_same; eauto. Qed.
Lemma rely_procs l n s : rely s (set_procs l n s).
Proof. repeat split. Qed.
Lemma put_started_frame l S : frame S (put_started l S).
Proof.
  unfold put_started. destruct (early S); apply frame_same; try reflexivity; [apply rely_refl|apply rely_procs].
Qed.
Lemma tri_put l S (Q : unit -> sim -> Prop) : Inv S -> (forall S', Q tt S') -> tri (upd_ (put_started l)) S Q.
Proof.
  intros H HQ. unfold tri, upd_. split; [apply put_started_Inv; exact H|]. split; [apply put_started_frame|apply HQ].
Qed.
Lemma tri_inter f S (Q : unit -> sim -> Prop) : Inv S -> (forall S', Q tt S') -> tri (upd_ (fun S => set_inter (f S) S)) S Q.
Proof. intros H HQ. apply tri_upd; auto. apply rely_refl. Qed.

Lemma tri_activate e S (Q : unit -> sim -> Prop) : Inv S -> (forall S', Q tt S') -> tri (activate e) S Q.
Proof.
  intros H HQ. unfold activate. tri_get_. intros a S' H' F ->.
  assert (R : tri (ret tt) S' Q) by (apply tri_ret; auto).
  destruct (ewhat e); try exact R; destruct (String.eqb _ _); try exact R; destruct (trig _ _); try exact R;
    (eapply tri_succeed; [exact H'|apply (i_pact _ H')|left; reflexivity|exact HQ]).
Qed.
Lemma tri_interact S (Q : unit -> sim -> Prop) : Inv S -> (forall S', Q tt S') -> tri interact S Q.
Proof.
  intros H HQ. unfold interact. tri_get_. intros a S1 H1 _ ->. destruct (hasenv S1) eqn:Hh; [|apply tri_ret; auto].
  eapply tri_bind with (Q1 := fun _ _ => True).
  - destruct (existsb _ _); [|apply tri_ret; auto]. eapply tri_succeed; [exact H1|apply (i_eact _ H1 Hh)|left; reflexivity|auto].
  - intros _ S2 H2 _ _. apply tri_upd; auto. repeat split.
Qed.
Lemma tri_act_of n S (Q : nat -> sim -> Prop) : Inv S -> (forall ev, role_at ev RAct S -> Q ev S) -> tri (act_of n) S Q.
Proof.
  intros H HQ. unfold act_of. eapply tri_bind; [apply tri_get with (Q := fun a S' => a = S' /\ S' = S); auto|]. intros a S' H' F [-> ->].
  destruct (dget (acts S) n) as [ev|] eqn:E; [|apply tri_throw; auto]. apply tri_ret; auto. apply HQ. apply (i_acts _ H _ _ E).
Qed.
Lemma tri_interrupt_extra a n S (Q : unit -> sim -> Prop) : Inv S -> (forall S', Q tt S') -> tri (interrupt_extra a n) S Q.
Proof.
  intros H HQ. unfold interrupt_extra. tri_get_. intros x S' H' F ->.
  destruct (dget (extras S') n) as [p|] eqn:E; [|apply tri_throw; auto]. apply tri_interrupt; auto.
  destruct (i_extras _ H' _ _ E) as (r & Hr & K). exists r. split; [exact Hr|]. rewrite K. exact I.
Qed.
Lemma tri_launch a pr S (Q : unit -> sim -> Prop) : Inv S -> (forall S', Q tt S') -> tri (launch a pr) S Q.
Proof.
  intros H HQ. unfold launch. destruct pr as [|id n m i c b t|id n enc i st t]; [apply tri_throw; auto| |].
  all: eapply tri_bind; [apply tri_act_of with (Q := fun ev S' => role_at ev RAct S'); auto|]; intros ev S1 H1 F1 Hev;
    eapply tri_bind; [apply tri_get with (Q := fun a S' => a = S' /\ S' = S1); auto|]; intros x S2 H2 F2 [-> ->];
    destruct (trig S1 ev).
  1,3: destruct (dget (inter S1) n) as [id'|]; [|apply tri_ret; auto]; destruct (Nat.eqb id id'); [apply tri_ret; auto|];
       eapply tri_bind with (Q1 := fun _ _ => True); [apply tri_inter; auto|]; intros; apply tri_interrupt_extra; auto.
  all: eapply tri_bind with (Q1 := fun _ _ => True); [try (match goal with |- context [interruptible ?m] => destruct (interruptible m) end); (apply tri_inter || apply tri_ret); auto|];
       intros _ S3 H3 F3 _; eapply tri_succeed; [exact H3|exact (frame_role _ _ _ _ F3 Hev)|left; reflexivity|exact HQ].
Qed.
Lemma tri_launch_all a l S (Q : unit -> sim -> Prop) : Inv S -> (forall S', Q tt S') -> tri (launch_all a l) S Q.
Proof.
  revert S. induction l as [|p l IH]; intros S H HQ; [apply tri_ret; auto|]. cbn [launch_all].
  eapply tri_bind with (Q1 := fun _ _ => True); [apply tri_launch; auto|]. intros; apply IH; auto.
Qed.

(** The processes that get a new event to wait for. *)
Definition firm (c : code) : Prop :=
  match c with KProcPro _ | KExtraPro _ _ | KExtraCont _ _ | KLocal _ _ _ _ | KEnvP _ => True | _ => False end.
Definition lands (k : option pkind_) (r : nxt) (S : sim) : Prop :=
  match r with
  | NDone (XCont _) => exists b n, k = Some (GLocal b n)
  | NDone _ => True
  | NWait c ev => kind_of c = k /\ (exists e, event_at ev S = Some e /\ forall p, erole e <> RInt p) /\ fits S c ev /\
                  (firm c -> processed ev S = false)
  end.
Lemma role_not_int ev r S : role_at ev r S -> (forall p, r <> RInt p) -> exists e, event_at ev S = Some e /\ forall p, erole e <> RInt p.
Proof. intros (e & He & Hr) H. exists e. split; [exact He|]. rewrite Hr. exact H. Qed.
Lemma tri_zero k S : Inv S -> tri (zero k) S (lands (Some GMain)).
Proof.
  intros H. unfold zero. eapply tri_bind; [apply tri_timeout with (Q := fun ev S' => role_at ev (RTime (now S + 0)) S'); auto|].
  intros ev S1 H1 F1 He. apply tri_ret; [exact H1|]. cbn. repeat split; auto; [|intros []]. eapply role_not_int; [exact He|discriminate].
Qed.
Lemma tri_proc_loop a S : Inv S -> tri (proc_loop a) S (lands (Some GMain)).
Proof.
  intros H. unfold proc_loop. tri_get_. intros x S1 H1 F1 ->. destruct (remove_procedural _) as [l|].
  - eapply tri_bind with (Q1 := fun _ _ => True); [apply tri_put; auto|]. intros _ S2 H2 F2 _.
    eapply tri_bind with (Q1 := fun _ _ => True); [apply tri_launch_all; auto|]. intros _ S3 H3 F3 _. apply tri_zero. exact H3.
  - apply tri_ret; [exact H1|]. cbn. repeat split; auto; [|intros []]. eapply role_not_int; [apply (i_pact _ H1)|discriminate].
Qed.
Lemma tri_spawn_local n g S (Q : nat -> sim -> Prop) : Inv S -> X (KLocal0 false n g) ->
  (forall p S', Inv S' -> (exists r, proc_at p S' = Some r /\ pkind r = Some (GLocal false n) /\ pown r = own_event p S') ->
     processed (own_event p S') S' = false -> Q p S') -> tri (spawn (KLocal0 false n g)) S Q.
Proof.
  intros H Hx HQ. apply tri_spawn; [exact H|exact Hx|left; eauto|].
  assert (N : proc_at (List.length (prs S)) (spawned (KLocal0 false n g) S) = Some (MkPrc (Some (GLocal false n)) (List.length (evs S)) (Datatypes.S (List.length (evs S))) (KLocal0 false n g))) by apply spawned_new.
  assert (Ow : own_event (List.length (prs S)) (spawned (KLocal0 false n g) S) = List.length (evs S)).
  { unfold own_event. unfold proc_at in N. rewrite N. reflexivity. }
  apply HQ.
  - apply spawned_Inv; cbn; eauto; intros; tauto.
  - eexists. split; [exact N|]. split; [reflexivity|]. rewrite Ow. reflexivity.
  - rewrite Ow. unfold processed. rewrite spawned_own. reflexivity.
Qed.
Lemma own_role p r S : Inv S -> proc_at p S = Some r -> role_at (own_event p S) (ROwn p) S.
Proof.
  intros H Hr. unfold own_event. unfold proc_at in Hr. rewrite Hr. destruct (i_own _ H _ _ Hr) as (e & He & R & _). exists e. auto.
Qed.
Lemma tri_extra_loop O n S : (forall p, X (KLocal0 false n (proc_gen O p))) -> Inv S -> tri (extra_loop O n) S (lands (Some (GExtra n))).
Proof.
  intros Hx H. unfold extra_loop. tri_get_. intros x S1 H1 F1 ->. destruct (take_proc n _) as [[p l]|].
  2:{ eapply tri_bind with (Q1 := fun _ _ => True); [apply tri_inter; auto|]. intros _ S2 H2 F2 _.
      eapply tri_bind; [apply tri_act_of with (Q := fun ev S' => role_at ev RAct S'); auto|]. intros ev S3 H3 F3 He.
      apply tri_ret; [exact H3|]. cbn. repeat split; auto; [|intros []]. eapply role_not_int; [exact He|discriminate]. }
  assert (G : tri (upd_ (put_started l) ;! (let! ev := act_of n in let! S := get in (if trig S ev then ret tt else succeed ev) ;!
              let! pro := spawn (KLocal0 false n (proc_gen O p)) in wait_for (KExtraPro n pro) pro)) S1 (lands (Some (GExtra n)))).
  { eapply tri_bind with (Q1 := fun _ _ => True); [apply tri_put; auto|]. intros _ S2 H2 F2 _.
    eapply tri_bind; [apply tri_act_of with (Q := fun ev S' => role_at ev RAct S'); auto|]. intros ev S3 H3 F3 He.
    eapply tri_bind; [apply tri_get with (Q := fun a S' => a = S' /\ S' = S3); auto|]. intros a S4 _ _ [-> ->].
    eapply tri_bind with (Q1 := fun _ _ => True).
    { destruct (trig S3 ev); [apply tri_ret; auto|]. eapply tri_succeed; [exact H3|exact He|left; reflexivity|auto]. }
    intros _ S5 H5 F5 _.
    eapply tri_bind; [apply tri_spawn_local with (Q := fun p S' => (exists r, proc_at p S' = Some r /\ pkind r = Some (GLocal false n) /\ pown r = own_event p S') /\ processed (own_event p S') S' = false); auto|].
    intros pro S6 H6 F6 [(r & Hr & Hk & Ho) Hp]. unfold wait_for.
    eapply tri_bind; [apply tri_get with (Q := fun a S' => a = S' /\ S' = S6); auto|]. intros a S7 _ _ [-> ->]. apply tri_ret; [exact H6|].
    cbn. repeat split; auto; [|exists r; auto]. eapply role_not_int; [eapply own_role; eauto|discriminate]. }
  destruct p; [apply tri_throw; exact H1|exact G|exact G].
Qed.

Lemma tri_auto a nb S (Q : unit -> sim -> Prop) : Inv S -> (forall S', Q tt S') -> tri (auto a nb) S Q.
Proof.
  intros H HQ. unfold auto. destruct nb as [n i]. eapply tri_bind; [apply tri_get with (Q := fun a S' => a = S' /\ S' = S); auto|]. intros x S1 H1 F1 [-> ->].
  assert (R : tri (ret tt) S Q) by (apply tri_ret; auto). assert (T : forall t, tri (throw t) S Q) by (intros; apply tri_throw; auto).
  destruct (nth_error (bufs (sw (ss S))) i) as [b|]; [|exact R]. cbv zeta.
  match goal with |- tri (match ?k with _ => _ end) _ _ => destruct k as [enc|] end; [|exact R].
  destruct (xstim _) as [st|]; [|apply T].
  eapply tri_bind with (Q1 := fun _ _ => True); [apply tri_upd; auto; apply rely_procs|]. intros _ S2 H2 F2 _.
  eapply tri_bind with (Q1 := fun _ _ => True).
  { unfold tri, upd_. split; [apply put_started_Inv; exact H2|]. split; [apply put_started_frame|exact I]. }
  intros _ S3 H3 F3 _.
  eapply tri_bind; [apply tri_act_of with (Q := fun ev S' => role_at ev RAct S'); auto|]. intros ev S4 H4 F4 He.
  eapply tri_bind; [apply tri_get with (Q := fun a S' => a = S' /\ S' = S4); auto|]. intros x S5 _ _ [-> ->].
  destruct (trig S4 ev).
  - destruct (dget _ n) as [id'|]; [|apply tri_throw; auto]. destruct (Nat.eqb _ _); [apply tri_ret; auto|].
    eapply tri_bind with (Q1 := fun _ _ => True); [apply tri_inter; auto|]. intros; apply tri_interrupt_extra; auto.
  - eapply tri_bind with (Q1 := fun _ _ => True); [apply tri_inter; auto|]. intros _ S6 H6 F6 _.
    eapply tri_succeed; [exact H6|exact (frame_role _ _ _ _ F6 He)|left; reflexivity|exact HQ].
Qed.
Lemma tri_auto_all a l S (Q : unit -> sim -> Prop) : Inv S -> (forall S', Q tt S') -> tri (auto_all a l) S Q.
Proof.
  revert S. induction l as [|p l IH]; intros S H HQ; [apply tri_ret; auto|]. cbn [auto_all].
  eapply tri_bind with (Q1 := fun _ _ => True); [apply tri_auto; auto|]. intros; apply IH; auto.
Qed.
Lemma tri_env_loop e g S : X (KEnvP0 e) -> Inv S -> hasenv S = true -> tri (env_loop e g) S (lands (Some GEnv)).
Proof.
  intros Hx H Hh. unfold env_loop.
  eapply tri_bind; [apply tri_spawn with (Q := fun p S' => (exists r, proc_at p S' = Some r /\ pkind r = Some GEnvP)); [exact H|exact Hx|right; eauto|]|].
  { eexists. split; [apply spawned_new|reflexivity]. }
  intros p S1 H1 F1 (r & Hr & Hk). eapply tri_bind; [apply tri_get with (Q := fun a S' => a = S' /\ S' = S1); auto|]. intros x S2 _ _ [-> ->].
  eapply tri_bind; [apply (tri_any_of _ _ (ROwn p) RAct) with (Q := fun c S' => role_at c RCond S'); auto; try discriminate|].
  - eapply own_role; eauto.
  - apply (i_eact _ H1). rewrite (f_hasenv _ _ F1). exact Hh.
  - intros c S3 H3 F3 Hc. apply tri_ret; [exact H3|]. cbn. repeat split; auto; [| |intros []].
    + eapply role_not_int; [exact Hc|discriminate].
    + exists r. split; [eapply frame_proc; eauto|exact Hk].
Qed.

End Code.

(** ** A process goes on *)

Notation all_codes := (fun _ : code => True).

(** What remains true whatever a process does. *)
Record wide (S S' : sim) : Prop := MkWide {
  w_now : now S' = now S;
  w_todo : todo S' = todo S;
  w_dead : dead S' = dead S;
  w_hasenv : hasenv S' = hasenv S;
  w_evs : forall ev e, event_at ev S = Some e -> exists e', event_at ev S' = Some e' /\ erole e' = erole e /\
            (evalue e' = evalue e \/ erole e = RAct \/ erole e = RCond) /\ (ecbs e' = None <-> ecbs e = None);
  w_prs : exists new, prs S' = prs S ++ new;
  w_tok : forall p, p < List.length (prs S) -> tokE p S' = tokE p S }.
Lemma frame_wide X S S' : frame X S S' -> wide S S'.
Proof. intros H. destruct H. constructor; auto. destruct f_prs0 as (new & E & _). eauto. Qed.
Lemma wide_trans S1 S2 S3 : wide S1 S2 -> wide S2 S3 -> wide S1 S3.
Proof.
  intros H1 H2. constructor.
  - rewrite (w_now _ _ H2). apply H1.
  - rewrite (w_todo _ _ H2). apply H1.
  - rewrite (w_dead _ _ H2). apply H1.
  - rewrite (w_hasenv _ _ H2). apply H1.
  - intros ev e H. destruct (w_evs _ _ H1 _ _ H) as (e1 & E1 & R1 & V1 & C1).
    destruct (w_evs _ _ H2 _ _ E1) as (e2 & E2 & R2 & V2 & C2). exists e2. split; [exact E2|]. split; [congruence|]. split.
    + rewrite R1 in V2. destruct V1 as [V1|V1]; [|auto]. destruct V2 as [V2|V2]; [left; congruence|auto].
    + tauto.
  - destruct (w_prs _ _ H1) as (n1 & E1). destruct (w_prs _ _ H2) as (n2 & E2). exists (n1 ++ n2). rewrite E2, E1, app_assoc. reflexivity.
  - intros p Hp. rewrite (w_tok _ _ H2), (w_tok _ _ H1); auto. destruct (w_prs _ _ H1) as (n1 & E1). rewrite E1, app_length. lia.
Qed.
Definition tri2 {A} (m : M A) (S : sim) (Q : A -> sim -> Prop) : Prop :=
  let '(S', r) := m S in Inv S' /\ wide S S' /\ match r with inl a => Q a S' | inr _ => True end.
Lemma tri_tri2 {A} (m : M A) S (Q : A -> sim -> Prop) : tri all_codes m S Q -> tri2 m S Q.
Proof. unfold tri, tri2. destruct (m S) as [S' r]. intros (H & F & HQ). split; [exact H|]. split; [exact (frame_wide _ _ _ F)|exact HQ]. Qed.
Lemma tri2_bind {A B} (m : M A) (k : A -> M B) S (Q1 : A -> sim -> Prop) (Q2 : B -> sim -> Prop) :
  tri2 m S Q1 -> (forall a S', Inv S' -> wide S S' -> Q1 a S' -> tri2 (k a) S' Q2) -> tri2 (bind m k) S Q2.
Proof.
  unfold tri2, bind. destruct (m S) as [S1 [a|t]]; intros (H1 & H2 & H3) Hk; [|auto].
  specialize (Hk a S1 H1 H2 H3). destruct (k a S1) as [S2 r]. destruct Hk as (K1 & K2 & K3).
  split; [exact K1|]. split; [eapply wide_trans; eauto|exact K3].
Qed.
Lemma wide_same S S' : now S' = now S -> evs S' = evs S -> prs S' = prs S -> todo S' = todo S -> dead S' = dead S -> hasenv S' = hasenv S -> wide S S'.
Proof.
  intros H1 H2 H3 H4 H5 H6. constructor; auto.
  - intros ev e H. exists e. unfold event_at in *. rewrite H2. repeat split; auto.
  - exists []. rewrite app_nil_r. auto.
  - intros. unfold tokE. rewrite H2. reflexivity.
Qed.

Lemma sorted_snoc (l : list Z) x : StronglySorted Z.le l -> Forall (fun y => (y <= x)%Z) l -> StronglySorted Z.le (l ++ [x]).
Proof.
  intros H F. induction H as [|y l Hs IH Hy]; cbn; [repeat constructor|]. inversion_clear F as [|? ? Fy Fl].
  constructor; [auto|]. apply Forall_app. split; [exact Hy|]. repeat constructor. exact Fy.
Qed.
Lemma tri2_note e S : Inv S -> now S = etime e -> tri2 (note e) S (fun _ _ => True).
Proof.
  intros H E. unfold tri2, note, upd_. split; [|split; [apply wide_same; reflexivity|exact I]].
  constructor; try apply H. cbn [log set_log now]. destruct (i_log _ H) as [Hs Hf]. split.
  - rewrite map_app. apply sorted_snoc; [exact Hs|]. rewrite Forall_map. eapply Forall_impl; [|exact Hf]. cbn. tauto.
  - apply Forall_app. split; [exact Hf|]. repeat constructor; cbn; [exact E|lia].
Qed.
Lemma tri2_local_next b n g S : Inv S -> tri2 (local_next b n g) S (lands (Some (GLocal b n))).
Proof.
  intros H. unfold tri2, local_next. destruct (resume g (ss S)) as [[s' ns] o].
  pose proof (Inv_ss s' S H) as H'. assert (W : wide S (set_ss s' S)) by (apply wide_same; reflexivity).
  destruct o as [|x|e k|x]; try (split; [exact H'|]; split; [exact W|destruct b; cbn; eauto]).
  assert (T : tri all_codes (let! ev := timeout (etime e - now (set_ss s' S)) in ret (NWait (KLocal b n e k) ev)) (set_ss s' S) (lands (Some (GLocal b n)))).
  { eapply tri_bind; [apply tri_timeout with (Q := fun ev S' => role_at ev (RTime (etime e)) S' /\ processed ev S' = false); auto|].
    - intros ev S1 R P. split; [|exact P]. replace (etime e) with (now (set_ss s' S) + (etime e - now (set_ss s' S)))%Z by lia. exact R.
    - intros ev S1 H1 F1 [R P]. apply tri_ret; [exact H1|]. cbn. repeat split; auto. eapply role_not_int; [exact R|discriminate]. }
  apply tri_tri2 in T. unfold tri2 in T. destruct (bind _ _ (set_ss s' S)) as [S' r]. destruct T as (T1 & T2 & T3).
  split; [exact T1|]. split; [eapply wide_trans; eauto|exact T3].
Qed.
Lemma tri2_env_next g k S : Inv S -> (forall r S', Inv S' -> wide S S' -> tri2 (k r) S' (lands (Some GEnv))) -> tri2 (env_next g k) S (lands (Some GEnv)).
Proof.
  intros H Hk. unfold tri2, env_next. destruct (resume g (ss S)) as [[s' ns] o].
  pose proof (Inv_ss s' S H) as H'. assert (W : wide S (set_ss s' S)) by (apply wide_same; reflexivity).
  assert (G : forall r, let '(S', r0) := k r (set_ss s' S) in Inv S' /\ wide S S' /\ match r0 with inl a => lands (Some GEnv) a S' | inr _ => True end).
  { intros r. pose proof (Hk r _ H' W) as T. unfold tri2 in T. destruct (k r (set_ss s' S)) as [S' r0]. destruct T as (T1 & T2 & T3).
    split; [exact T1|]. split; [eapply wide_trans; eauto|exact T3]. }
  destruct o; try (split; [exact H'|]; split; [exact W|exact I]); apply G.
Qed.
Lemma tri2_spawn_proc g c S : Inv S -> (c = KProcPro true \/ c = KProcPro false) ->
  tri2 (let! pro := spawn (KLocal0 true PROCEDURAL g) in wait_for c pro) S (lands (Some GMain)).
Proof.
  intros H Hc. unfold tri2, bind. rewrite spawn_eq. unfold wait_for, bind, get, ret.
  set (S' := spawned (KLocal0 true PROCEDURAL g) S).
  assert (H' : Inv S') by (apply spawned_Inv; cbn; eauto; intros; tauto).
  assert (N : proc_at (List.length (prs S)) S' = Some (MkPrc (Some (GLocal true PROCEDURAL)) (List.length (evs S)) (Datatypes.S (List.length (evs S))) (KLocal0 true PROCEDURAL g))) by apply spawned_new.
  assert (Ow : own_event (List.length (prs S)) S' = List.length (evs S)).
  { unfold own_event. unfold proc_at in N. rewrite N. reflexivity. }
  split; [exact H'|]. split.
  - constructor; try reflexivity.
    + intros ev x Hx. exists x. split; [apply nth_snoc_old, nth_snoc_old; exact Hx|]. repeat split; auto.
    + eexists. reflexivity.
    + intros q Hq. unfold tokE. cbn [evs set_evs spawned set_prs set_queue S']. apply esum_new. lia.
  - rewrite Ow. cbn [lands].
    assert (R : role_at (List.length (evs S)) (ROwn (List.length (prs S))) S') by (eexists; split; [apply spawned_own|reflexivity]).
    assert (P : processed (List.length (evs S)) S' = false) by (unfold processed, S'; rewrite spawned_own; reflexivity).
    assert (F : exists pro r, proc_at pro S' = Some r /\ pkind r = Some (GLocal true PROCEDURAL) /\ pown r = List.length (evs S)) by (do 2 eexists; split; [exact N|]; split; reflexivity).
    pose proof (role_not_int _ _ _ R ltac:(discriminate)) as R'.
    destruct Hc as [->| ->]; cbn [kind_of fits firm]; auto.
Qed.

Lemma tri2_ret {A} (a : A) S (Q : A -> sim -> Prop) : Inv S -> Q a S -> tri2 (ret a) S Q.
Proof. intros. apply tri_tri2, tri_ret; auto. Qed.
Lemma tri2_throw {A} t S (Q : A -> sim -> Prop) : Inv S -> tri2 (throw t) S Q.
Proof. intros. apply tri_tri2, tri_throw; auto. Qed.
Lemma tri2_get {A} (k : sim -> M A) S (Q : A -> sim -> Prop) : tri2 (k S) S Q -> tri2 (bind get k) S Q.
Proof. intros H. exact H. Qed.

Lemma tri2_new_act f S : Inv S -> (forall ev S, Inv S -> role_at ev RAct S -> Inv (f ev S) /\ wide S (f ev S)) ->
  tri2 (let! ev := new_event RAct in upd_ (f ev)) S (fun _ _ => True).
Proof.
  intros H Hf. eapply tri2_bind; [apply tri_tri2, tri_new_event with (Q := fun ev S' => role_at ev RAct S'); auto; left; reflexivity|].
  intros ev S1 H1 _ R. unfold tri2, upd_. destruct (Hf ev S1 H1 R). auto.
Qed.
Lemma Inv_pact ev S : Inv S -> role_at ev RAct S -> Inv (set_pact ev S) /\ wide S (set_pact ev S).
Proof. intros H R. split; [|apply wide_same; reflexivity]. constructor; try apply H. exact R. Qed.
Lemma Inv_eact ev S : Inv S -> role_at ev RAct S -> Inv (set_eact ev S) /\ wide S (set_eact ev S).
Proof. intros H R. split; [|apply wide_same; reflexivity]. constructor; try apply H. intros _. exact R. Qed.
Lemma Inv_acts n ev S : Inv S -> role_at ev RAct S -> Inv (set_acts (dset (acts S) n ev) S) /\ wide S (set_acts (dset (acts S) n ev) S).
Proof.
  intros H R. split; [|apply wide_same; reflexivity]. constructor; try apply H. cbn [acts set_acts]. intros m i.
  rewrite dget_dset. destruct (String.eqb _ _); [|apply (i_acts _ H)]. intros [= ->]. exact R.
Qed.

(** The process [p] with code [c] in state [S] goes on. *)
Lemma go_on_ok O p c k o ev S : Inv S -> c = KEnd \/ kind_of c = k -> fits S c ev -> (envy k -> hasenv S = true) ->
  (forall v t, o = Good v -> due c = Some t -> now S = t) -> tri2 (go_on O p c o) S (lands k).
Proof.
  intros H Hk Hf He Hd. assert (Th : forall t, tri2 (@throw nxt t) S (lands k)) by (intros; apply tri2_throw; exact H).
  assert (Dn : tri2 (ret (NDone XUnit)) S (lands k)) by (intros; apply tri2_ret; [exact H|exact I]).
  destruct c; cbn [kind_of] in Hk; try (destruct Hk as [Hk|Hk]; [discriminate|]; subst k).
  - (* KProc0 *) destruct o as [v|t]; [|apply Th]. cbn [go_on]. apply tri2_get. apply tri2_spawn_proc; auto.
  - (* KProcPro *) destruct o as [v|t]; [|destruct t; apply Th]. cbn [go_on].
    eapply tri2_bind with (Q1 := fun _ _ => True); [apply tri_tri2, tri_upd; auto; apply rely_refl|]. intros _ S1 H1 W1 _.
    eapply tri2_bind with (Q1 := fun _ _ => True).
    { destruct first; [apply tri2_ret; auto|]. apply tri2_new_act; [exact H1|]. apply Inv_pact. }
    intros _ S2 H2 W2 _. apply tri_tri2, tri_proc_loop. exact H2.
  - (* KProcAct *) destruct o as [v|t]; [|apply Th]. apply tri_tri2, tri_zero. exact H.
  - (* KProcZero *) destruct o as [v|t]; [|destruct more; apply Th]. destruct more; cbn [go_on].
    + apply tri2_get. apply tri2_spawn_proc; auto.
    + apply tri_tri2, tri_zero. exact H.
  - (* KExtra0 *) destruct o as [v|t]; [|apply Th]. apply tri_tri2, tri_extra_loop; auto.
  - (* KExtraAct *) destruct o as [v|t]; [|apply Th]. cbn [go_on].
    eapply tri2_bind; [apply tri_tri2, tri_new_event with (Q := fun ev S' => role_at ev RAct S'); auto; left; reflexivity|].
    intros ev' S1 H1 _ R.
    eapply tri2_bind with (Q1 := fun _ _ => True); [unfold tri2, upd_; destruct (Inv_acts name ev' S1 H1 R); auto|].
    intros _ S2 H2 W2 _. apply tri_tri2, tri_extra_loop; auto.
  - (* KExtraPro *) 
    assert (Lp : tri2 (extra_loop O name) S (lands (Some (GExtra name)))) by (apply tri_tri2, tri_extra_loop; auto).
    destruct Hf as (r & Hr & Kr & _).
    destruct o as [[| |g]|t]; try exact Lp.
    + cbn [go_on]. apply tri_tri2.
      eapply tri_bind; [apply tri_spawn_local with (Q := fun p S' => (exists r, proc_at p S' = Some r /\ pkind r = Some (GLocal false name) /\ pown r = own_event p S') /\ processed (own_event p S') S' = false); auto|].
      intros q S6 H6 F6 [(r' & Hr' & Hk & Ho) Hp]. unfold wait_for.
      eapply tri_bind; [apply tri_get with (Q := fun a S' => a = S' /\ S' = S6); auto|]. intros a S7 _ _ [-> ->]. apply tri_ret; [exact H6|].
      cbn. repeat split; auto; [|exists r'; auto]. eapply role_not_int; [eapply own_role; eauto|discriminate].
    + destruct t; try apply Th. cbn [go_on]. apply tri2_get.
      eapply tri2_bind with (Q1 := fun _ _ => True).
      * destruct (ended pro S); [apply tri2_ret; auto|]. apply tri_tri2, tri_interrupt; auto. exists r. rewrite Kr. split; [exact Hr|exact I].
      * intros _ S1 H1 _ _. apply tri_tri2, tri_extra_loop; auto.
  - (* KExtraCont *) assert (Lp : tri2 (extra_loop O name) S (lands (Some (GExtra name)))) by (apply tri_tri2, tri_extra_loop; auto).
    destruct o as [v|t]; [exact Lp|]. destruct t; try apply Th. exact Lp.
  - (* KLocal0 *) destruct o as [v|t]; [|apply Th]. apply tri2_local_next. exact H.
  - (* KLocal *) destruct o as [v|t]; [|destruct t; first [exact (Th _)|exact Dn]]. cbn [go_on].
    eapply tri2_bind with (Q1 := fun _ _ => True); [apply tri2_note; [exact H|]; apply (Hd v); reflexivity|]. intros _ S1 H1 _ _.
    eapply tri2_bind with (Q1 := fun _ _ => True); [apply tri_tri2, tri_activate; auto|]. intros _ S2 H2 _ _.
    eapply tri2_bind with (Q1 := fun _ _ => True); [apply tri_tri2, tri_interact; auto|]. intros _ S3 H3 _ _. apply tri2_local_next. exact H3.
  - (* KEnv0 *) destruct o as [v|t]; [|apply Th]. cbn [go_on]. apply tri2_env_next; [exact H|]. intros r S1 H1 W1.
    destruct r as [[e g']|]; [|apply tri2_throw; exact H1]. apply tri_tri2, tri_env_loop; [exact I|exact H1|]. rewrite (w_hasenv _ _ W1). apply He. exact I.
  - (* KEnvWait *) destruct Hf as (r & Hr & Kr). destruct o as [v|t]; [|apply Th]. cbn [go_on]. apply tri2_get.
    eapply tri2_bind with (Q1 := fun _ _ => True).
    { destruct (trig S (eact S)); [|apply tri2_ret; auto].
      eapply tri2_bind; [apply tri_tri2, tri_new_event with (Q := fun ev S' => role_at ev RAct S'); auto; left; reflexivity|]. intros ev' S1 H1 W1 R.
      eapply tri2_bind with (Q1 := fun _ _ => True); [unfold tri2, upd_; destruct (Inv_eact ev' S1 H1 R); auto|]. intros _ S2 H2 W2 _.
      apply tri_tri2, tri_interrupt; auto. exists r. rewrite Kr. split; [|exact I].
      destruct (w_prs _ _ (wide_trans _ _ _ W1 W2)) as (new & En). unfold proc_at in *. rewrite En, nth_error_app1; [exact Hr|]. apply nth_error_Some. congruence. }
    intros _ S1 H1 W1 _. apply tri2_env_next; [exact H1|]. intros r' S2 H2 W2.
    destruct r' as [[e g']|]; [|apply tri2_ret; [exact H2|exact I]]. apply tri2_get.
    eapply tri2_bind with (Q1 := fun _ _ => True); [apply tri_tri2, tri_auto_all; auto|]. intros _ S3 H3 W3 _.
    apply tri_tri2, tri_env_loop; [exact I|exact H3|]. rewrite (w_hasenv _ _ W3), (w_hasenv _ _ W2), (w_hasenv _ _ W1). apply He. exact I.
  - (* KEnvP0 *) destruct o as [v|t]; [|apply Th]. cbn [go_on]. apply tri2_get. destruct (Z.ltb _ _).
    + eapply tri2_bind with (Q1 := fun _ _ => True); [apply tri_tri2, tri_activate; auto|]. intros _ S1 H1 _ _. apply tri2_throw. exact H1.
    + apply tri_tri2. eapply tri_bind; [apply tri_timeout with (Q := fun ev S' => role_at ev (RTime (etime e)) S' /\ processed ev S' = false); auto|].
      * intros ev' S1 R P. split; [|exact P]. replace (etime e) with (now S + (etime e - now S))%Z by lia. exact R.
      * intros ev' S1 H1 F1 [R P]. apply tri_ret; [exact H1|]. cbn. repeat split; auto. eapply role_not_int; [exact R|discriminate].
  - (* KEnvP *) destruct o as [v|t]; cbn [go_on].
    + eapply tri2_bind with (Q1 := fun _ _ => True); [apply tri2_note; [exact H|]; apply (Hd v); reflexivity|]. intros _ S1 H1 _ _.
      eapply tri2_bind with (Q1 := fun _ _ => True); [apply tri_tri2, tri_activate; auto|]. intros _ S2 H2 _ _. apply tri2_ret; [exact H2|exact I].
    + destruct t; (eapply tri2_bind with (Q1 := fun _ _ => True); [apply tri_tri2, tri_activate; auto|]; intros _ S2 H2 _ _);
        (apply tri2_ret; [exact H2|exact I]) || (apply tri2_throw; exact H2).
  - (* KEnd *) destruct o; apply Dn.
Qed.

(** ** Steps *)

Definition calm_todo (S : sim) : Prop := forall ev q, ~ In (WCb ev (CInt q)) (todo S).
Lemma Inv_tail S w l : Inv S -> todo S = w :: l -> Inv (set_todo l S) /\ calm_todo (set_todo l S).
Proof.
  intros H E. assert (Nc : forall ev q, ~ In (WCb ev (CInt q)) l).
  { intros ev q Hq. assert (Hq' : In (WCb ev (CInt q)) (todo S)) by (rewrite E; right; exact Hq).
    destruct (i_intw _ H _ _ Hq') as [T _]. rewrite E in T. injection T as -> ->. destruct Hq as [Hq|[]]. discriminate. }
  split; [|exact Nc].
  assert (Sub : forall x, In x l -> In x (todo S)) by (intros; rewrite E; right; assumption).
  constructor; try apply H; cbn [todo set_todo].
  - intros ev c Hc. apply (i_cbw _ H _ _ (Sub _ Hc)).
  - intros ev p Hp. apply (i_resw _ H _ _ (Sub _ Hp)).
  - intros p. pose proof (i_tok _ H p) as T. unfold tokT in *. cbn [todo set_todo]. rewrite E in T. change (w :: l) with ([w] ++ l) in T. rewrite wsum_app in T. change (tokE p (set_todo l S)) with (tokE p S). cbn [prs set_todo]. lia.
  - intros ev p Hp. elim (Nc _ _ Hp).
  - intros ev c Hc. apply (i_chkw _ H _ _ (Sub _ Hc)).
  - intros p r v t Hp Hw. apply (i_due _ H _ _ _ _ Hp (Sub _ Hw)).
Qed.
Lemma Inv_run p o r S : Inv S -> calm_todo S -> tokE p S = 0 -> tokT p S = 0 -> proc_at p S = Some r ->
  (forall v t, o = Good v -> due (pcode r) = Some t -> now S = t) -> Inv (set_todo (WRun p o :: todo S) S).
Proof.
  intros H Nc HE HT Hr Hd. constructor; try apply H; cbn [todo set_todo].
  - intros ev c [Hc|Hc]; [discriminate|]. apply (i_cbw _ H _ _ Hc).
  - intros ev q [Hc|Hc]; [discriminate|]. apply (i_resw _ H _ _ Hc).
  - intros q. pose proof (i_tok _ H q) as T. unfold tokT in *. cbn [todo set_todo prs]. change (tokE q (set_todo _ S)) with (tokE q S).
    change (WRun p o :: todo S) with ([WRun p o] ++ todo S). rewrite wsum_app. unfold wsum at 1. cbn [map tokW list_sum fold_right].
    destruct (Nat.eqb_spec p q) as [->|N]; [|lia]. rewrite HE, HT. assert (L : q < List.length (prs S)) by (apply nth_error_Some; unfold proc_at in Hr; congruence).
    destruct (Nat.ltb_spec q (List.length (prs S))); lia.
  - intros ev q [Hc|Hc]; [discriminate|]. elim (Nc _ _ Hc).
  - intros ev c [Hc|Hc]; [discriminate|]. apply (i_chkw _ H _ _ Hc).
  - intros q r' v t Hq [Hw|Hw] Hdu; [|apply (i_due _ H _ _ _ _ Hq Hw Hdu)]. injection Hw as -> ->. change (proc_at q S = Some r') in Hq.
    assert (r' = r) by congruence. subst r'. apply (Hd v t eq_refl Hdu).
Qed.

Lemma tok0_res p S ev e : tokE p S = 0 -> event_at ev S = Some e -> ~ In (CResume p) (cbs_of e).
Proof. intros H He Hp. apply cres_In in Hp. pose proof (esum_In p _ _ _ He). unfold tokE in H. lia. Qed.
Lemma tok0_resw p S ev : tokT p S = 0 -> ~ In (WCb ev (CResume p)) (todo S).
Proof. intros H Hp. pose proof (wsum_In p _ _ Hp) as L. cbn in L. rewrite Nat.eqb_refl in L. unfold tokT in H. lia. Qed.
Lemma tok0_run p S o : tokT p S = 0 -> ~ In (WRun p o) (todo S).
Proof. intros H Hp. pose proof (wsum_In p _ _ Hp) as L. cbn in L. rewrite Nat.eqb_refl in L. unfold tokT in H. lia. Qed.

(** The process [p], which is nowhere waited for, changes. *)
Lemma Inv_set_prc S p r r' : Inv S -> proc_at p S = Some r -> pkind r' = pkind r -> pown r' = pown r -> pcode r <> KEnd -> pcode r' <> KEnd ->
  pkind r = kind_of (pcode r') -> fits S (pcode r') (ptarget r') -> tokE p S = 0 -> tokT p S = 0 -> Inv (set_prs (upd (prs S) p r') S).
Proof.
  intros H Hr Kk Ko Ke Ke' Kc Hf HE HT. set (S' := set_prs (upd (prs S) p r') S).
  assert (At : forall i, proc_at i S' = if Nat.eqb i p then Some r' else proc_at i S).
  { intros i. unfold proc_at, S'. cbn [prs set_prs]. destruct (Nat.eqb_spec i p) as [->|N]; [apply (upd_same _ _ _ r); exact Hr|apply upd_other; exact N]. }
  assert (Old : forall i x, proc_at i S = Some x -> exists x', proc_at i S' = Some x' /\ pkind x' = pkind x /\ pown x' = pown x).
  { intros i x Hx. rewrite At. destruct (Nat.eqb_spec i p) as [->|N]; [|exists x; auto]. assert (x = r) by congruence. subst x. exists r'. auto. }
  assert (Fo : forall c ev, fits S c ev -> fits S' c ev).
  { intros c ev F. destruct c; cbn [fits] in *; auto.
    - destruct F as (pro & x & Hx & A & B). destruct (Old _ _ Hx) as (x' & Hx' & A' & B'). exists pro, x'. repeat split; congruence.
    - destruct F as (x & Hx & A & B). destruct (Old _ _ Hx) as (x' & Hx' & A' & B'). exists x'. repeat split; congruence.
    - destruct F as (x & Hx & A & B). destruct (Old _ _ Hx) as (x' & Hx' & A' & B'). exists x'. repeat split; congruence.
    - destruct F as (x & Hx & A). destruct (Old _ _ Hx) as (x' & Hx' & A' & B'). exists x'. repeat split; congruence. }
  constructor; try apply H.
  - intros ev e q He Hq. destruct (Nat.eq_dec q p) as [->|N]; [elim (tok0_res _ _ _ _ HE He Hq)|].
    rewrite At. destruct (Nat.eqb_spec q p); [contradiction|]. apply (i_res _ H _ _ _ He Hq).
  - intros ev q Hq. destruct (Nat.eq_dec q p) as [->|N]; [elim (tok0_resw _ _ _ HT Hq)|].
    rewrite At. destruct (Nat.eqb_spec q p); [contradiction|]. apply (i_resw _ H _ _ Hq).
  - intros q. cbn [prs set_prs S']. rewrite upd_length. apply (i_tok _ H).
  - intros ev e q He Hq. destruct (i_role _ H _ _ _ He Hq) as (C & x & Hx & So). split; [exact C|].
    destruct (Old _ _ Hx) as (x' & Hx' & A' & _). exists x'. split; [exact Hx'|]. rewrite A'. exact So.
  - intros q x Hx. rewrite At in Hx. destruct (Nat.eqb_spec q p) as [->|N]; [|apply (i_own _ H _ _ Hx)]. injection Hx as <-.
    destruct (i_own _ H _ _ Hr) as (e & He & R & V). exists e. rewrite Ko. split; [exact He|]. split; [exact R|]. tauto.
  - intros q x Hx. rewrite At in Hx. destruct (Nat.eqb_spec q p) as [->|N]; [|apply (i_kind _ H _ _ Hx)]. injection Hx as <-.
    destruct (i_kind _ H _ _ Hr) as (_ & Nn). rewrite Kk. auto.
  - intros q x Hx. rewrite At in Hx. apply Fo. destruct (Nat.eqb_spec q p) as [->|N]; [|apply (i_fits _ H _ _ Hx)]. injection Hx as <-. exact Hf.
  - intros q x v t Hx Hw. rewrite At in Hx. destruct (Nat.eqb_spec q p) as [->|N]; [elim (tok0_run _ _ _ HT Hw)|apply (i_due _ H _ _ _ _ Hx Hw)].
  - intros n q Hq. destruct (i_extras _ H _ _ Hq) as (x & Hx & K). destruct (Old _ _ Hx) as (x' & Hx' & A' & _). exists x'. split; congruence.
  - intros q x Hx Hh. rewrite At in Hx. destruct (Nat.eqb_spec q p) as [->|N]; [|apply (i_env _ H _ _ Hx Hh)]. injection Hx as <-.
    rewrite Kk in Hh. apply (i_env _ H _ _ Hr Hh).
Qed.

(** The process [p] starts to wait for [ev]. *)
Lemma Inv_add_resume S p r ev e : Inv S -> proc_at p S = Some r -> ptarget r = ev -> event_at ev S = Some e -> (forall q, erole e <> RInt q) ->
  tokE p S = 0 -> tokT p S = 0 ->
  Inv (set_evs (upd (evs S) ev (MkEvt (erole e) (evalue e) (edefused e) (match ecbs e with Some l => Some (l ++ [CResume p]) | None => None end))) S).
Proof.
  intros H Hr Ht He Hn HE HT. set (e' := MkEvt _ _ _ _). set (S' := set_evs _ S).
  assert (At : forall i, event_at i S' = if Nat.eqb i ev then Some e' else event_at i S).
  { intros i. unfold event_at, S'. cbn [evs set_evs]. destruct (Nat.eqb_spec i ev) as [->|N]; [apply (upd_same _ _ _ e); exact He|apply upd_other; exact N]. }
  assert (Old : forall i x, event_at i S = Some x -> exists x', event_at i S' = Some x' /\ erole x' = erole x /\ evalue x' = evalue x).
  { intros i x Hx. rewrite At. destruct (Nat.eqb_spec i ev) as [->|N]; [|exists x; auto]. assert (x = e) by congruence. subst x. exists e'. auto. }
  assert (Ro : forall i r, role_at i r S -> role_at i r S').
  { intros i x (y & Hy & R). destruct (Old _ _ Hy) as (x' & Hx' & R' & _). exists x'. split; congruence. }
  assert (Cb : forall c, In c (cbs_of e') -> In c (cbs_of e) \/ c = CResume p).
  { intros c. unfold cbs_of, e'. cbn [ecbs]. destruct (ecbs e) as [l|]; [|auto]. rewrite in_app_iff. intros [Hl|[<-|[]]]; auto. }
  assert (Cr : forall q, cres q (cbs_of e') <= cres q (cbs_of e) + (if Nat.eqb p q then 1 else 0)).
  { intros q. unfold cbs_of, e'. cbn [ecbs]. destruct (ecbs e) as [l|]; [|lia]. rewrite cres_app. unfold cres at 2. cbn. destruct (Nat.eqb p q); cbn; lia. }
  constructor; try apply H.
  - intros q Hq. destruct (i_heap _ H q Hq) as (H1 & x & Hx & H2). split; [exact H1|]. destruct (Old _ _ Hx) as (x' & Hx' & R & _). exists x'. rewrite R. auto.
  - intros i c Hi. destruct (i_cbw _ H i c Hi) as (x & Hx & H2). destruct (Old _ _ Hx) as (x' & Hx' & R & _). exists x'. rewrite R. auto.
  - intros i x q Hx Hq. rewrite At in Hx. destruct (Nat.eqb_spec i ev) as [->|N]; [|apply (i_res _ H _ _ _ Hx Hq)].
    injection Hx as <-. destruct (Cb _ Hq) as [Hp'|D]; [apply (i_res _ H _ _ _ He Hp')|]. injection D as ->. exists r. auto.
  - intros q. pose proof (i_tok _ H q) as T. pose proof (esum_upd q _ _ _ e' He) as U. specialize (Cr q). unfold tokE, tokT in *.
    cbn [evs set_evs S' todo prs] in *. destruct (Nat.eqb_spec p q) as [->|N]; [|lia].
    assert (L : q < List.length (prs S)) by (apply nth_error_Some; unfold proc_at in Hr; congruence).
    destruct (Nat.ltb_spec q (List.length (prs S))); lia.
  - intros i x q Hx Hq. rewrite At in Hx. destruct (Nat.eqb_spec i ev) as [->|N]; [|apply (i_int _ H _ _ _ Hx Hq)].
    injection Hx as <-. destruct (Cb _ Hq) as [Hp'|D]; [apply (i_int _ H _ _ _ He Hp')|discriminate].
  - intros i x q Hx Hq. rewrite At in Hx. destruct (Nat.eqb_spec i ev) as [->|N]; [|apply (i_role _ H _ _ _ Hx Hq)].
    injection Hx as <-. elim (Hn q Hq).
  - intros i q Hq. destruct (i_intw _ H _ _ Hq) as (T & R). auto.
  - intros i x c Hx Hi. apply Ro. rewrite At in Hx. destruct (Nat.eqb_spec i ev) as [->|N]; [|apply (i_chk _ H _ _ _ Hx Hi)].
    injection Hx as <-. destruct (Cb _ Hi) as [Hp'|D]; [apply (i_chk _ H _ _ _ He Hp')|discriminate].
  - intros i c Hi. apply Ro. apply (i_chkw _ H _ _ Hi).
  - intros q x Hx. destruct (i_own _ H _ _ Hx) as (y & Hy & R & V). destruct (Old _ _ Hy) as (y' & Hy' & R' & V'). exists y'. rewrite V'. split; [exact Hy'|]. split; [congruence|exact V].
  - intros q x Hq. pose proof (i_fits _ H _ _ Hq) as F. destruct (pcode x); cbn [fits] in *; auto.
  - apply Ro, (i_pact _ H).
  - intros n i Hi. apply Ro. apply (i_acts _ H _ _ Hi).
  - intros Hh. apply Ro. apply (i_eact _ H Hh).
Qed.

Lemma fits_soft S c ev ev' : ~ firm c -> fits S c ev -> fits S c ev'.
Proof. destruct c; cbn; auto; tauto. Qed.
Lemma firm_dec c : firm c \/ ~ firm c.
Proof. destruct c; cbn; auto. Qed.
Lemma due_firm c t : due c = Some t -> firm c.
Proof. destruct c; cbn; auto; discriminate. Qed.

Lemma calm_defuse S ev : calm_todo S -> calm_todo (exec_ (defuse ev) S).
Proof. unfold calm_todo, exec_, defuse, set_event, upd_. cbn. destruct (nth_error _ _); exact (fun H => H). Qed.

Lemma hand_over_ok S p r c ev : Inv S -> calm_todo S -> proc_at p S = Some r -> pcode r <> KEnd -> pkind r = kind_of c -> c <> KEnd -> tokE p S = 0 -> tokT p S = 0 ->
  lands (kind_of c) (NWait c ev) S -> Inv (hand_over p ev (set_prc p (fun r => MkPrc (pkind r) (pown r) (ptarget r) c) S)).
Proof.
  intros H Nc Hr Ke Kc Ke' HE HT (_ & (e & He & Hn) & Hf & Hp). unfold hand_over, set_prc.
  change (nth_error (prs S) p) with (proc_at p S). rewrite Hr. set (r1 := MkPrc (pkind r) (pown r) (ptarget r) c).
  change (event_at ev (set_prs (upd (prs S) p r1) S)) with (event_at ev S). rewrite He.
  destruct (ecbs e) as [l|] eqn:El; [|destruct (evalue e) as [o|] eqn:Ev].
  - unfold exec_, add_cb, set_event, upd_. cbn [fst]. cbn [evs set_prs]. change (nth_error (evs S) ev) with (event_at ev S). rewrite He. rewrite El. cbn [prs set_evs set_prs].
    rewrite (upd_same _ _ _ r Hr). cbn [pkind pown pcode r1]. set (r2 := MkPrc (pkind r) (pown r) ev c). rewrite upd_upd.
    assert (H1 : Inv (set_prs (upd (prs S) p r2) S)) by (apply (Inv_set_prc _ _ r); auto).
    pose proof (Inv_add_resume _ p r2 ev e H1 (upd_same _ _ _ r Hr) eq_refl He Hn HE HT) as H2. rewrite El in H2. exact H2.
  - assert (Nf : ~ firm c). { intros F. specialize (Hp F). unfold processed in Hp. rewrite He, El in Hp. discriminate. }
    assert (H1 : Inv (set_prs (upd (prs S) p r1) S)).
    { apply (Inv_set_prc _ _ r); auto. eapply fits_soft; [exact Nf|exact Hf]. }
    assert (G : Inv (set_todo (WRun p o :: todo (set_prs (upd (prs S) p r1) S)) (set_prs (upd (prs S) p r1) S))).
    { apply (Inv_run _ _ r1); auto; [apply (upd_same _ _ _ r Hr)|]. intros v t _ D. elim Nf. eapply due_firm; eauto. }
    destruct o as [v|t]; [exact G|].
    pose proof (tri_defuse all_codes ev _ (fun _ _ => True) G (fun _ => I)) as D. unfold tri in D.
    assert (Ex : forall S0, exec_ (defuse ev) (set_todo (WRun p (Bad t) :: todo S0) S0) = set_todo (WRun p (Bad t) :: todo S0) (exec_ (defuse ev) S0)).
    { intros S0. unfold exec_, defuse, set_event, upd_. cbn. destruct (nth_error _ _); reflexivity. }
    rewrite <- Ex. unfold exec_. destruct (defuse ev _) as [S3 x]. apply D.
  - (* waits for an event that never happens *)
    assert (Ex : exec_ (add_cb ev (CResume p)) (set_prs (upd (prs S) p r1) S) =
                 set_evs (upd (evs S) ev (MkEvt (erole e) (evalue e) (edefused e) None)) (set_prs (upd (prs S) p r1) S)).
    { unfold exec_, add_cb, set_event, upd_. cbn [fst]. cbn [evs set_prs]. change (nth_error (evs S) ev) with (event_at ev S). rewrite He, El. reflexivity. }
    rewrite Ex. cbn [prs set_evs set_prs]. rewrite (upd_same _ _ _ r Hr). cbn [pkind pown pcode r1]. set (r2 := MkPrc (pkind r) (pown r) ev c). rewrite upd_upd.
    assert (H1 : Inv (set_prs (upd (prs S) p r2) S)) by (apply (Inv_set_prc _ _ r); auto).
    pose proof (Inv_add_resume _ p r2 ev e H1 (upd_same _ _ _ r Hr) eq_refl He Hn HE HT) as H2. rewrite El in H2. exact H2.
Qed.

Lemma end_process_ok S p r o : Inv S -> proc_at p S = Some r -> tokE p S = 0 -> tokT p S = 0 -> Inv (end_process p o S).
Proof.
  intros H Hr HE HT. unfold end_process, set_prc. change (nth_error (prs S) p) with (proc_at p S). rewrite Hr.
  set (r' := MkPrc (pkind r) (pown r) (ptarget r) KEnd). unfold own_event. change (nth_error (prs S) p) with (proc_at p S). rewrite Hr.
  destruct (i_own _ H _ _ Hr) as (e & He & R & V).
  unfold exec_, bind, set_event, upd_, schedule. cbn [fst]. cbn [evs set_prs]. change (nth_error (evs S) (pown r)) with (event_at (pown r) S). rewrite He.
  set (e' := MkEvt (erole e) (Some o) (edefused e) (ecbs e)).
  set (S' := set_evs (upd (evs S) (pown r) e') (set_prs (upd (prs S) p r') S)).
  assert (Pt : forall i, proc_at i S' = if Nat.eqb i p then Some r' else proc_at i S).
  { intros i. unfold proc_at, S'. cbn [prs set_evs set_prs]. destruct (Nat.eqb_spec i p) as [->|N]; [apply (upd_same _ _ _ r); exact Hr|apply upd_other; exact N]. }
  assert (Pold : forall i x, proc_at i S = Some x -> exists x', proc_at i S' = Some x' /\ pkind x' = pkind x /\ pown x' = pown x).
  { intros i x Hx. rewrite Pt. destruct (Nat.eqb_spec i p) as [->|N]; [|exists x; auto]. assert (x = r) by congruence. subst x. exists r'. auto. }
  assert (At : forall i, event_at i S' = if Nat.eqb i (pown r) then Some e' else event_at i S).
  { intros i. unfold event_at, S'. cbn [evs set_evs]. destruct (Nat.eqb_spec i (pown r)) as [->|N]; [apply (upd_same _ _ _ e); exact He|apply upd_other; exact N]. }
  assert (Old : forall i x, event_at i S = Some x -> exists x', event_at i S' = Some x' /\ erole x' = erole x /\ ecbs x' = ecbs x).
  { intros i x Hx. rewrite At. destruct (Nat.eqb_spec i (pown r)) as [->|N]; [|exists x; auto]. assert (x = e) by congruence. subst x. exists e'. auto. }
  assert (New : forall i x, event_at i S' = Some x -> exists x', event_at i S = Some x' /\ erole x' = erole x /\ ecbs x' = ecbs x).
  { intros i x Hx. rewrite At in Hx. destruct (Nat.eqb_spec i (pown r)) as [->|N]; [|exists x; auto]. injection Hx as <-. exists e. auto. }
  assert (Ro : forall i r, role_at i r S -> role_at i r S').
  { intros i x (y & Hy & Ry). destruct (Old _ _ Hy) as (x' & Hx' & R' & _). exists x'. split; congruence. }
  assert (Fo : forall c ev, fits S c ev -> fits S' c ev).
  { intros c ev F. destruct c; cbn [fits] in *; auto.
    - destruct F as (pro & x & Hx & A & B). destruct (Pold _ _ Hx) as (x' & Hx' & A' & B'). exists pro, x'. repeat split; congruence.
    - destruct F as (x & Hx & A & B). destruct (Pold _ _ Hx) as (x' & Hx' & A' & B'). exists x'. repeat split; congruence.
    - destruct F as (x & Hx & A & B). destruct (Pold _ _ Hx) as (x' & Hx' & A' & B'). exists x'. repeat split; congruence.
    - destruct F as (x & Hx & A). destruct (Pold _ _ Hx) as (x' & Hx' & A' & B'). exists x'. repeat split; congruence. }
  assert (Cs : forall x x', ecbs x' = ecbs x -> cbs_of x' = cbs_of x) by (intros x x' E; unfold cbs_of; rewrite E; reflexivity).
  assert (H' : Inv S').
  { constructor.
    - intros q Hq. destruct (i_heap _ H q Hq) as (H1 & x & Hx & H2). split; [exact H1|]. destruct (Old _ _ Hx) as (x' & Hx' & R' & _). exists x'. rewrite R'. auto.
    - intros i c Hi. destruct (i_cbw _ H i c Hi) as (x & Hx & H2). destruct (Old _ _ Hx) as (x' & Hx' & R' & _). exists x'. rewrite R'. auto.
    - intros i x q Hx Hq. destruct (New _ _ Hx) as (x' & Hx' & _ & C'). rewrite <- (Cs _ _ C') in Hq.
      destruct (Nat.eq_dec q p) as [->|N]; [elim (tok0_res _ _ _ _ HE Hx' Hq)|]. rewrite Pt. destruct (Nat.eqb_spec q p); [contradiction|]. apply (i_res _ H _ _ _ Hx' Hq).
    - intros i q Hq. destruct (Nat.eq_dec q p) as [->|N]; [elim (tok0_resw _ _ _ HT Hq)|].
      rewrite Pt. destruct (Nat.eqb_spec q p); [contradiction|]. apply (i_resw _ H _ _ Hq).
    - intros q. pose proof (i_tok _ H q) as T. unfold tokE, tokT in *. cbn [evs set_evs S' todo prs set_prs] in *. rewrite upd_length. rewrite (esum_same _ _ _ e); auto.
    - intros i x q Hx Hq. destruct (New _ _ Hx) as (x' & Hx' & R' & C'). rewrite <- (Cs _ _ C') in Hq. rewrite <- R'. apply (i_int _ H _ _ _ Hx' Hq).
    - intros i x q Hx Hq. destruct (New _ _ Hx) as (x' & Hx' & R' & C'). rewrite <- R' in Hq. destruct (i_role _ H _ _ _ Hx' Hq) as (C & y & Hy & So).
      rewrite <- C'. split; [exact C|]. destruct (Pold _ _ Hy) as (y' & Hy' & A' & _). exists y'. split; [exact Hy'|]. rewrite A'. exact So.
    - intros i q Hq. destruct (i_intw _ H _ _ Hq) as (T & R'). auto.
    - intros i x c Hx Hi. destruct (New _ _ Hx) as (x' & Hx' & R' & C'). rewrite <- (Cs _ _ C') in Hi. apply Ro. apply (i_chk _ H _ _ _ Hx' Hi).
    - intros i c Hi. apply Ro. apply (i_chkw _ H _ _ Hi).
    - intros q x Hx. rewrite Pt in Hx. destruct (Nat.eqb_spec q p) as [->|N].
      + injection Hx as <-. exists e'. cbn [pown r']. rewrite At, Nat.eqb_refl. split; [reflexivity|]. split; [exact R|]. cbn. split; [discriminate|congruence].
      + destruct (i_own _ H _ _ Hx) as (y & Hy & Ry & Vy). exists y. rewrite At. destruct (Nat.eqb_spec (pown x) (pown r)) as [Ep|]; [|auto].
        rewrite Ep in Hy. assert (y = e) by congruence. subst y. elim N. congruence.
    - intros q x Hx. rewrite Pt in Hx. destruct (Nat.eqb_spec q p) as [->|N]; [|apply (i_kind _ H _ _ Hx)]. injection Hx as <-. cbn. split; [auto|]. apply (i_kind _ H _ _ Hr).
    - intros q x Hx. rewrite Pt in Hx. apply Fo. destruct (Nat.eqb_spec q p) as [->|N]; [|apply (i_fits _ H _ _ Hx)]. injection Hx as <-. exact I.
    - intros q x v t Hx Hw. rewrite Pt in Hx. destruct (Nat.eqb_spec q p) as [->|N]; [elim (tok0_run _ _ _ HT Hw)|apply (i_due _ H _ _ _ _ Hx Hw)].
    - apply Ro, (i_pact _ H).
    - intros n i Hi. apply Ro. apply (i_acts _ H _ _ Hi).
    - intros n q Hq. destruct (i_extras _ H _ _ Hq) as (x & Hx & K). destruct (Pold _ _ Hx) as (x' & Hx' & A' & _). exists x'. split; congruence.
    - intros Hh. apply Ro. apply (i_eact _ H Hh).
    - intros q x Hx Hh. rewrite Pt in Hx. destruct (Nat.eqb_spec q p) as [->|N]; [|apply (i_env _ H _ _ Hx Hh)]. injection Hx as <-. apply (i_env _ H _ _ Hr Hh).
    - apply (i_log _ H). }
  eapply (Inv_schedule S' NORMAL 0 (pown r) e'); [exact H'|lia| |].
  - rewrite At, Nat.eqb_refl. reflexivity.
  - cbn. rewrite R. discriminate.
Qed.

Lemma wide_role S S' ev r : wide S S' -> role_at ev r S -> role_at ev r S'.
Proof. intros H (e & E & R). destruct (w_evs _ _ H _ _ E) as (e' & E' & R' & _). exists e'. split; congruence. Qed.
Lemma wide_proc S S' p r : wide S S' -> proc_at p S = Some r -> proc_at p S' = Some r.
Proof.
  intros H E. destruct (w_prs _ _ H) as (n & En). unfold proc_at in *. rewrite En, nth_error_app1; [exact E|].
  apply nth_error_Some. congruence.
Qed.
Lemma kend_dec c : c = KEnd \/ c <> KEnd.
Proof. destruct c; auto; right; discriminate. Qed.
Lemma kind_end c : kind_of c <> None -> c <> KEnd.
Proof. intros H ->. apply H. reflexivity. Qed.

(** Resuming a process. *)
Lemma run_tokens S p o l : Inv S -> todo S = WRun p o :: l -> forall r, proc_at p S = Some r -> tokE p (set_todo l S) = 0 /\ tokT p (set_todo l S) = 0.
Proof.
  intros H E r Hr. pose proof (i_tok _ H p) as T. unfold tokT in T. rewrite E in T. change (WRun p o :: l) with ([WRun p o] ++ l) in T. rewrite wsum_app in T.
  assert (X : wsum p [WRun p o] = 1) by (unfold wsum; cbn; rewrite Nat.eqb_refl; reflexivity). rewrite X in T.
  unfold tokT. cbn [todo set_todo]. change (tokE p (set_todo l S)) with (tokE p S). destruct (Nat.ltb p (List.length (prs S))); lia.
Qed.
Lemma cb_tokens S ev p l : Inv S -> todo S = WCb ev (CResume p) :: l -> tokE p (set_todo l S) = 0 /\ tokT p (set_todo l S) = 0.
Proof.
  intros H E. pose proof (i_tok _ H p) as T. unfold tokT in T. rewrite E in T. change (WCb ev (CResume p) :: l) with ([WCb ev (CResume p)] ++ l) in T. rewrite wsum_app in T.
  assert (X : wsum p [WCb ev (CResume p)] = 1) by (unfold wsum; cbn; rewrite Nat.eqb_refl; reflexivity). rewrite X in T.
  unfold tokT. cbn [todo set_todo]. change (tokE p (set_todo l S)) with (tokE p S). destruct (Nat.ltb p (List.length (prs S))); lia.
Qed.

Lemma Inv_dead x S : Inv S -> Inv (set_dead x S).
Proof. intros H. eapply Inv_same; eauto. Qed.

Lemma run_ok O p o l S : Inv S -> todo S = WRun p o :: l -> Inv (work_off O (WRun p o) (set_todo l S)).
Proof.
  intros H E. destruct (Inv_tail _ _ _ H E) as [H1 Nc]. cbn [work_off].
  change (nth_error (prs (set_todo l S)) p) with (proc_at p S). destruct (proc_at p S) as [r|] eqn:Hr; [|exact H1].
  destruct (run_tokens _ _ _ _ H E r Hr) as [HE HT].
  pose proof (i_kind _ H1 p r Hr) as [Hk Hkn]. pose proof (i_fits _ H1 p r Hr) as Hf.
  assert (G : tri2 (go_on O p (pcode r) o) (set_todo l S) (lands (pkind r))).
  { apply (go_on_ok _ _ _ _ _ (ptarget r)); auto; [destruct Hk; auto|apply (i_env _ H1 _ _ Hr)|].
    intros v t -> D. apply (i_due _ H p r v t Hr); [|exact D]. rewrite E. left. reflexivity. }
  unfold tri2 in G. destruct (go_on O p (pcode r) o (set_todo l S)) as [S2 x] eqn:Eg. destruct G as (H2 & W & L).
  pose proof (wide_proc _ _ _ _ W Hr) as Hr2.
  assert (HE2 : tokE p S2 = 0). { rewrite (w_tok _ _ W); [exact HE|]. apply nth_error_Some. unfold proc_at in Hr. cbn. congruence. }
  assert (HT2 : tokT p S2 = 0). { unfold tokT. rewrite (w_todo _ _ W). exact HT. }
  destruct x as [[c ev|v]|t]; try (apply (end_process_ok _ _ r); assumption).
  assert (Kc : pcode r <> KEnd). { intros Ke. rewrite Ke in Eg. destruct o; discriminate Eg. }
  pose proof L as L'. destruct L' as (Kk & _).
  apply (hand_over_ok S2 p r); auto.
  - intros i q. rewrite (w_todo _ _ W). apply Nc.
  - apply kind_end. rewrite Kk. exact Hkn.
  - rewrite Kk. exact L.
Qed.

Lemma resume_ok O ev p l S : Inv S -> todo S = WCb ev (CResume p) :: l -> Inv (work_off O (WCb ev (CResume p)) (set_todo l S)).
Proof.
  intros H E. destruct (Inv_tail _ _ _ H E) as [H1 Nc]. cbn [work_off]. change (event_at ev (set_todo l S)) with (event_at ev S).
  assert (Hin : In (WCb ev (CResume p)) (todo S)) by (rewrite E; left; reflexivity).
  destruct (i_resw _ H _ _ Hin) as (r & Hr & Ht). destruct (i_cbw _ H _ _ Hin) as (e & He & Hnow). rewrite He.
  destruct (evalue e) as [o|] eqn:Ev; [|exact H1]. destruct (cb_tokens _ _ _ _ H E) as [HE HT].
  assert (G : Inv (set_todo (WRun p o :: todo (set_todo l S)) (set_todo l S))).
  { apply (Inv_run _ _ r); auto. intros v t _ D. apply Hnow. pose proof (i_fits _ H _ _ Hr) as F.
    destruct (pcode r); cbn in D; try discriminate; injection D as <-; destruct F as (e1 & He1 & R1); rewrite Ht in He1; congruence. }
  destruct o as [v|t]; [exact G|].
  pose proof (tri_defuse all_codes ev _ (fun _ _ => True) G (fun _ => I)) as D. unfold tri in D.
  assert (Ex : forall S0, exec_ (defuse ev) (set_todo (WRun p (Bad t) :: todo S0) S0) = set_todo (WRun p (Bad t) :: todo S0) (exec_ (defuse ev) S0)).
  { intros S0. unfold exec_, defuse, set_event, upd_. cbn. destruct (nth_error _ _); reflexivity. }
  rewrite <- Ex. unfold exec_. destruct (defuse ev _) as [S3 x]. apply D.
Qed.

(** Callbacks that are taken away. *)
Lemma Inv_remove_cb S ev e p : Inv S -> event_at ev S = Some e ->
  Inv (set_evs (upd (evs S) ev (MkEvt (erole e) (evalue e) (edefused e) (match ecbs e with Some l => Some (remove_cb (CResume p) l) | None => None end))) S).
Proof.
  intros H He. set (e' := MkEvt _ _ _ _). set (S' := set_evs _ S).
  assert (At : forall i, event_at i S' = if Nat.eqb i ev then Some e' else event_at i S).
  { intros i. unfold event_at, S'. cbn [evs set_evs]. destruct (Nat.eqb_spec i ev) as [->|N]; [apply (upd_same _ _ _ e); exact He|apply upd_other; exact N]. }
  assert (Old : forall i x, event_at i S = Some x -> exists x', event_at i S' = Some x' /\ erole x' = erole x /\ evalue x' = evalue x).
  { intros i x Hx. rewrite At. destruct (Nat.eqb_spec i ev) as [->|N]; [|exists x; auto]. assert (x = e) by congruence. subst x. exists e'. auto. }
  assert (Ro : forall i r, role_at i r S -> role_at i r S').
  { intros i x (y & Hy & R). destruct (Old _ _ Hy) as (x' & Hx' & R' & _). exists x'. split; congruence. }
  assert (Cb : forall c, In c (cbs_of e') -> In c (cbs_of e)).
  { intros c. unfold cbs_of, e'. cbn [ecbs]. destruct (ecbs e) as [l|]; [|auto]. apply remove_cb_In. }
  assert (Cr : forall q, cres q (cbs_of e') <= cres q (cbs_of e)).
  { intros q. unfold cbs_of, e'. cbn [ecbs]. destruct (ecbs e) as [l|]; [|lia]. destruct (Nat.eq_dec p q) as [->|N]; [rewrite remove_cres; lia|rewrite remove_cres_other by exact N; lia]. }
  constructor; try apply H.
  - intros q Hq. destruct (i_heap _ H q Hq) as (H1 & x & Hx & H2). split; [exact H1|]. destruct (Old _ _ Hx) as (x' & Hx' & R & _). exists x'. rewrite R. auto.
  - intros i c Hi. destruct (i_cbw _ H i c Hi) as (x & Hx & H2). destruct (Old _ _ Hx) as (x' & Hx' & R & _). exists x'. rewrite R. auto.
  - intros i x q Hx Hq. rewrite At in Hx. destruct (Nat.eqb_spec i ev) as [->|N]; [|apply (i_res _ H _ _ _ Hx Hq)].
    injection Hx as <-. apply (i_res _ H _ _ _ He (Cb _ Hq)).
  - intros q. pose proof (i_tok _ H q) as T. pose proof (esum_upd q _ _ _ e' He) as U. specialize (Cr q). unfold tokE, tokT in *.
    cbn [evs set_evs S' todo prs] in *. lia.
  - intros i x q Hx Hq. rewrite At in Hx. destruct (Nat.eqb_spec i ev) as [->|N]; [|apply (i_int _ H _ _ _ Hx Hq)].
    injection Hx as <-. apply (i_int _ H _ _ _ He (Cb _ Hq)).
  - intros i x q Hx Hq. rewrite At in Hx. destruct (Nat.eqb_spec i ev) as [->|N]; [|apply (i_role _ H _ _ _ Hx Hq)].
    injection Hx as <-. destruct (i_role _ H _ _ _ He Hq) as (C & P). split; [|exact P]. unfold e'. cbn [ecbs]. destruct C as [->| ->]; [auto|right; reflexivity].
  - intros i q Hq. destruct (i_intw _ H _ _ Hq) as (T & R). auto.
  - intros i x c Hx Hi. apply Ro. rewrite At in Hx. destruct (Nat.eqb_spec i ev) as [->|N]; [|apply (i_chk _ H _ _ _ Hx Hi)].
    injection Hx as <-. apply (i_chk _ H _ _ _ He (Cb _ Hi)).
  - intros i c Hi. apply Ro. apply (i_chkw _ H _ _ Hi).
  - intros q x Hx. destruct (i_own _ H _ _ Hx) as (y & Hy & R & V). destruct (Old _ _ Hy) as (y' & Hy' & R' & V'). exists y'. rewrite V'. split; [exact Hy'|]. split; [congruence|exact V].
  - intros q x Hq. pose proof (i_fits _ H _ _ Hq) as F. destruct (pcode x); cbn [fits] in *; auto.
  - apply Ro, (i_pact _ H).
  - intros n i Hi. apply Ro. apply (i_acts _ H _ _ Hi).
  - intros Hh. apply Ro. apply (i_eact _ H Hh).
Qed.

(** Every token of a process lies on its target. *)
Lemma tok_target S p r : Inv S -> proc_at p S = Some r ->
  tokE p S = match event_at (ptarget r) S with Some e => cres p (cbs_of e) | None => 0 end.
Proof.
  intros H Hr. assert (G : forall l n, (forall i e, nth_error l i = Some e -> In (CResume p) (cbs_of e) -> i = n) ->
    esum p l = match nth_error l n with Some e => cres p (cbs_of e) | None => 0 end).
  { induction l as [|x l IH]; intros n Hn; [destruct n; reflexivity|]. unfold esum in *. cbn [map list_sum fold_right].
    assert (Z0 : forall l', (forall i e, nth_error l' i = Some e -> ~ In (CResume p) (cbs_of e)) -> list_sum (map (fun e => cres p (cbs_of e)) l') = 0).
    { induction l' as [|y l' IH']; intros Hz; [reflexivity|]. cbn. fold (list_sum (map (fun e => cres p (cbs_of e)) l')). rewrite IH'; [|intros i e Hi; apply (Hz (Datatypes.S i) e Hi)].
      pose proof (Hz 0 y eq_refl) as Hy. rewrite cres_In in Hy. lia. }
    fold (list_sum (map (fun e => cres p (cbs_of e)) l)).
    destruct n as [|n]; cbn [nth_error].
    - rewrite Z0; [lia|]. intros i e Hi Hc. specialize (Hn (Datatypes.S i) e Hi Hc). discriminate.
    - rewrite (IH n); [|intros i e Hi Hc; specialize (Hn (Datatypes.S i) e Hi Hc); congruence].
      assert (Y : cres p (cbs_of x) = 0); [|lia]. destruct (Nat.eq_0_gt_0_cases (cres p (cbs_of x))) as [->|Hc]; [reflexivity|]. apply cres_In in Hc. specialize (Hn 0 x eq_refl Hc). discriminate. }
  apply G. intros i e Hi Hc. destruct (i_res _ H _ _ _ Hi Hc) as (r' & Hr' & Ht). assert (r' = r) by congruence. subst r'. symmetry. exact Ht.
Qed.

Lemma interrupt_ok O ev p l S : Inv S -> todo S = WCb ev (CInt p) :: l -> Inv (work_off O (WCb ev (CInt p)) (set_todo l S)).
Proof.
  intros H E. destruct (Inv_tail _ _ _ H E) as [H1 Nc]. cbn [work_off].
  destruct (ended p (set_todo l S)); [exact H1|]. change (nth_error (prs (set_todo l S)) p) with (proc_at p S).
  destruct (proc_at p S) as [r|] eqn:Hr; [|exact H1].
  assert (Hin : In (WCb ev (CInt p)) (todo S)) by (rewrite E; left; reflexivity).
  destruct (i_intw _ H _ _ Hin) as [El _]. rewrite E in El. injection El as ->.
  unfold exec_, set_event, upd_. cbn [fst evs set_todo]. set (S1 := set_todo [WEnd ev] S) in *.
  change (nth_error (evs S) (ptarget r)) with (event_at (ptarget r) S1).
  pose proof (i_tok _ H1 p) as T. pose proof (tok_target S1 p r H1 Hr) as Ht.
  destruct (event_at (ptarget r) S1) as [e|] eqn:He.
  - pose proof (Inv_remove_cb S1 _ e p H1 He) as H2. set (S2 := set_evs _ S1) in H2.
    apply (Inv_run p _ r S2); auto.
    + pose proof (esum_upd p _ _ _ (MkEvt (erole e) (evalue e) (edefused e) (match ecbs e with Some l => Some (remove_cb (CResume p) l) | None => None end)) He) as U.
      unfold tokE in *. cbn [evs S2 set_evs]. rewrite Ht in U.
      assert (C : cres p (cbs_of e) <= 1) by (destruct (Nat.ltb p _); lia).
      unfold cbs_of in U, C. cbn [ecbs] in U. clear Ht. revert U C. destruct (ecbs e) as [l|]; intros U C; [rewrite remove_cres in U; lia|change (cres p []) with 0 in U; lia].
    + discriminate.
  - apply (Inv_run p _ r S1); auto. discriminate.
Qed.
Lemma check_ok O ev c l S : Inv S -> todo S = WCb ev (CCheck c) :: l -> Inv (work_off O (WCb ev (CCheck c)) (set_todo l S)).
Proof.
  intros H E. destruct (Inv_tail _ _ _ H E) as [H1 Nc]. cbn [work_off]. unfold exec_.
  assert (Hin : In (WCb ev (CCheck c)) (todo S)) by (rewrite E; left; reflexivity).
  pose proof (tri_check all_codes c ev (set_todo l S) (fun _ _ => True) H1 (i_chkw _ H _ _ Hin) (fun _ => I)) as T. unfold tri in T.
  destruct (check c ev (set_todo l S)) as [S2 x]. apply T.
Qed.
Lemma work_ok O w l S : Inv S -> todo S = w :: l -> Inv (work_off O w (set_todo l S)).
Proof.
  intros H E. destruct w as [ev [p|p|c]|p o|ev].
  - apply resume_ok; assumption.
  - apply interrupt_ok; assumption.
  - apply check_ok; assumption.
  - apply run_ok; assumption.
  - destruct (Inv_tail _ _ _ H E) as [H1 _]. cbn [work_off]. destruct (event_at _ _) as [e|]; [|exact H1].
    destruct (evalue e) as [[v|t]|]; try exact H1. destruct (edefused e); [exact H1|apply Inv_dead; exact H1].
Qed.

Lemma earlier_time a b : earlier a b = true -> (qtime a <= qtime b)%Z.
Proof. unfold earlier. destruct (Z.ltb_spec (qtime a) (qtime b)); [lia|]. destruct (Z.ltb_spec (qtime b) (qtime a)); [discriminate|lia]. Qed.
Lemma later_time a b : earlier a b = false -> (qtime b <= qtime a)%Z.
Proof. unfold earlier. destruct (Z.ltb_spec (qtime a) (qtime b)); [discriminate|lia]. Qed.
Lemma pop_min_ok l q h : pop_min l = Some (q, h) -> In q l /\ (forall x, In x h -> In x l /\ (qtime q <= qtime x)%Z).
Proof.
  revert q h. induction l as [|y l IH]; cbn [pop_min]; [discriminate|]. intros q h.
  destruct (pop_min l) as [[m r]|] eqn:E.
  - destruct (IH _ _ eq_refl) as [Hm Hr]. destruct (earlier y m) eqn:Ey; intros [= <- <-].
    + split; [left; reflexivity|]. intros x Hx. split; [right; exact Hx|]. apply earlier_time in Ey.
      assert (D : x = m \/ In x r).
      { clear -E Hx. revert m r E. induction l as [|z l IH]; [destruct Hx|]. cbn [pop_min]. intros m r. destruct (pop_min l) as [[m' r']|] eqn:E'.
        - destruct (earlier z m') eqn:Ez; intros [= <- <-].
          + destruct Hx as [->|Hx]; [auto|right; exact Hx].
          + destruct Hx as [->|Hx]; [right; left; reflexivity|]. destruct (IH Hx _ _ eq_refl) as [->|D]; [auto|right; right; exact D].
        - intros [= <- <-]. destruct Hx as [->|Hx]; [auto|]. destruct l; [destruct Hx|]. cbn in E'. destruct (pop_min l) as [[? ?]|]; [destruct (earlier _ _)|]; discriminate. }
      destruct D as [->|D]; [exact Ey|]. destruct (Hr _ D). lia.
    + split; [right; exact Hm|]. apply later_time in Ey. intros x [<-|Hx]; [split; [left; reflexivity|exact Ey]|].
      destruct (Hr _ Hx). split; [right; assumption|assumption].
  - intros [= <- <-]. split; [left; reflexivity|]. intros x [].
Qed.

Lemma pop_ok S q h e : Inv S -> todo S = [] -> pop_min (heap S) = Some (q, h) -> event_at (qev q) S = Some e ->
  Inv (set_todo (map (WCb (qev q)) (cbs_of e) ++ [WEnd (qev q)])
        (set_evs (upd (evs S) (qev q) (MkEvt (erole e) (evalue e) (edefused e) None)) (set_now (qtime q) (set_queue (eid S) h S)))).
Proof.
  intros H Et Ep He. destruct (pop_min_ok _ _ _ Ep) as [Hq Hh]. destruct (i_heap _ H _ Hq) as (Hn & e0 & He0 & Hrt).
  assert (e0 = e) by congruence. subst e0. set (e' := MkEvt _ _ _ None). set (ev := qev q) in *. set (S' := set_todo _ _).
  assert (At : forall i, event_at i S' = if Nat.eqb i ev then Some e' else event_at i S).
  { intros i. unfold event_at, S'. cbn [evs set_evs set_todo]. destruct (Nat.eqb_spec i ev) as [->|N]; [apply (upd_same _ _ _ e); exact He|apply upd_other; exact N]. }
  assert (Old : forall i x, event_at i S = Some x -> exists x', event_at i S' = Some x' /\ erole x' = erole x /\ evalue x' = evalue x).
  { intros i x Hx. rewrite At. destruct (Nat.eqb_spec i ev) as [->|N]; [|exists x; auto]. assert (x = e) by congruence. subst x. exists e'. auto. }
  assert (New : forall i x, event_at i S' = Some x -> event_at i S = Some x \/ (i = ev /\ x = e')).
  { intros i x Hx. rewrite At in Hx. destruct (Nat.eqb_spec i ev) as [->|N]; [|auto]. injection Hx as <-. auto. }
  assert (Ro : forall i r, role_at i r S -> role_at i r S').
  { intros i x (y & Hy & R). destruct (Old _ _ Hy) as (x' & Hx' & R' & _). exists x'. split; congruence. }
  assert (Td : forall i c, In (WCb i c) (todo S') -> i = ev /\ In c (cbs_of e)).
  { intros i c. cbn [todo set_todo S']. rewrite in_app_iff, in_map_iff. intros [(d & D & Hd)|[D|[]]]; [injection D as <- <-; auto|discriminate]. }
  constructor.
  - intros x Hx. destruct (Hh _ Hx) as [Hx' Lx]. destruct (i_heap _ H _ Hx') as (_ & y & Hy & R). split; [exact Lx|].
    destruct (Old _ _ Hy) as (y' & Hy' & R' & _). exists y'. rewrite R'. auto.
  - intros i c Hc. destruct (Td _ _ Hc) as [-> _]. exists e'. rewrite At, Nat.eqb_refl. auto.
  - intros i x p Hx Hp. destruct (New _ _ Hx) as [Hx'|[-> ->]]; [apply (i_res _ H _ _ _ Hx' Hp)|destruct Hp].
  - intros i p Hp. destruct (Td _ _ Hp) as [-> Hc]. apply (i_res _ H _ _ _ He Hc).
  - intros p. pose proof (i_tok _ H p) as T. pose proof (esum_upd p _ _ _ e' He) as U. unfold tokE, tokT in *.
    cbn [evs set_evs S' todo set_todo prs set_now set_queue] in *. rewrite wsum_app, wsum_cb. rewrite Et in T.
    change (wsum p []) with 0 in T. change (wsum p [WEnd ev]) with 0. change (cres p (cbs_of e')) with 0 in U. lia.
  - intros i x p Hx Hp. destruct (New _ _ Hx) as [Hx'|[-> ->]]; [apply (i_int _ H _ _ _ Hx' Hp)|destruct Hp].
  - intros i x p Hx Hp. destruct (New _ _ Hx) as [Hx'|[-> ->]]; [apply (i_role _ H _ _ _ Hx' Hp)|].
    split; [left; reflexivity|]. apply (i_role _ H _ _ _ He Hp).
  - intros i p Hp. destruct (Td _ _ Hp) as [-> Hc]. pose proof (i_int _ H _ _ _ He Hc) as R. split; [|apply Ro; exists e; auto].
    destruct (i_role _ H _ _ _ He R) as ([C|C] & _); unfold cbs_of in *; rewrite C in Hc; [destruct Hc|]. cbn [todo set_todo S']. rewrite C. reflexivity.
  - intros i x c Hx Hc. apply Ro. destruct (New _ _ Hx) as [Hx'|[-> ->]]; [apply (i_chk _ H _ _ _ Hx' Hc)|destruct Hc].
  - intros i c Hc. apply Ro. destruct (Td _ _ Hc) as [-> Hc']. apply (i_chk _ H _ _ _ He Hc').
  - intros p x Hx. destruct (i_own _ H _ _ Hx) as (y & Hy & R & V). destruct (Old _ _ Hy) as (y' & Hy' & R' & V'). exists y'. rewrite V'. split; [exact Hy'|]. split; [congruence|exact V].
  - apply (i_kind _ H).
  - intros p x Hx. pose proof (i_fits _ H _ _ Hx) as F. destruct (pcode x); cbn [fits] in *; auto.
  - intros p r v t Hp Hw. cbn [todo set_todo S'] in Hw. apply in_app_iff in Hw. rewrite in_map_iff in Hw. destruct Hw as [(d & D & _)|[D|[]]]; discriminate.
  - apply Ro, (i_pact _ H).
  - intros n i Hi. apply Ro. apply (i_acts _ H _ _ Hi).
  - apply (i_extras _ H).
  - intros Hx. apply Ro. apply (i_eact _ H Hx).
  - apply (i_env _ H).
  - destruct (i_log _ H) as [Hs Hf]. split; [exact Hs|]. eapply Forall_impl; [|exact Hf]. cbn. intros te [A B]. split; [exact A|lia].
Qed.

Theorem step_ok O S S' : Inv S -> sim_step O S = Some S' -> Inv S'.
Proof.
  intros H. unfold sim_step. destruct (dead S); [discriminate|]. destruct (todo S) as [|w l] eqn:Et.
  - destruct (pop_min (heap S)) as [[q h]|] eqn:Ep; [|discriminate]. cbv zeta. change (event_at (qev q) (set_now (qtime q) (set_queue (eid S) h S))) with (event_at (qev q) S).
    destruct (pop_min_ok _ _ _ Ep) as [Hq _]. destruct (i_heap _ H _ Hq) as (_ & e & He & _). rewrite He. intros [= <-].
    pose proof (pop_ok S q h e H Et Ep He) as G. unfold exec_, set_event, upd_. cbn [fst evs set_now set_queue]. change (nth_error (evs S) (qev q)) with (event_at (qev q) S). rewrite He. exact G.
  - intros [= <-]. apply work_ok; assumption.
Qed.

(** ** The beginning *)

Lemma tri2_spawn c S (Q : nat -> sim -> Prop) : Inv S -> (exists k, kind_of c = Some k) -> due c = None -> (forall S ev, fits S c ev) -> (envy (kind_of c) -> hasenv S = true) ->
  Q (List.length (prs S)) (spawned c S) -> tri2 (spawn c) S Q.
Proof.
  intros H Hk Hd Hf Hh HQ. unfold tri2. rewrite spawn_eq. split; [apply spawned_Inv; assumption|]. split; [|exact HQ].
  constructor; try reflexivity.
  - intros ev x Hx. exists x. split; [apply nth_snoc_old, nth_snoc_old; exact Hx|]. repeat split; auto.
  - eexists. reflexivity.
  - intros q Hq. unfold tokE. cbn [evs set_evs spawned set_prs set_queue]. apply esum_new. lia.
Qed.
Lemma make_extras_ok names S : Inv S -> tri2 (make_extras names) S (fun _ _ => True).
Proof.
  revert S. induction names as [|n names IH]; intros S H; [apply tri2_ret; auto|]. cbn [make_extras].
  eapply tri2_bind with (Q1 := fun _ _ => True); [|intros _ S1 H1 _ _; apply IH; exact H1].
  destruct (String.eqb n PROCEDURAL); [apply tri2_ret; auto|].
  eapply tri2_bind; [apply tri2_spawn with (Q := fun p S' => exists r, proc_at p S' = Some r /\ pkind r = Some (GExtra n)); cbn; eauto; try tauto|].
  { eexists. split; [apply spawned_new|reflexivity]. }
  intros p S1 H1 W1 Hp.
  eapply tri2_bind with (Q1 := fun _ _ => True).
  { unfold tri2, upd_. split; [|split; [apply wide_same; reflexivity|exact I]]. constructor; try apply H1. cbn [extras set_extras]. intros m q.
    rewrite dget_dset. destruct (String.eqb_spec n m) as [<-|]; [|apply (i_extras _ H1)]. intros [= <-]. exact Hp. }
  intros _ S2 H2 W2 _. apply tri2_new_act; [exact H2|]. intros ev S3. apply Inv_acts.
Qed.
Theorem init_ok t s env : Inv (sim_init t s env).
Proof.
  unfold sim_init, exec_. set (S0 := MkSim _ _ _ _ _ _ _ _ _ _ _ _ _ _ _ _).
  assert (R0 : role_at 0 RAct S0) by (eexists; split; reflexivity).
  assert (E0 : forall ev e, event_at ev S0 = Some e -> e = MkEvt RAct None false (Some [])).
  { intros [|[|ev]] e He; cbn in He; congruence. }
  assert (P0 : forall p, proc_at p S0 = None) by (intros [|p]; reflexivity).
  assert (H0 : Inv S0).
  { constructor; cbn [heap todo prs S0 log now hasenv eact pact acts extras]; try (intros; contradiction); try (intros; discriminate).
    - intros ev e p He Hp. rewrite (E0 _ _ He) in Hp. destruct Hp.
    - intros p. cbn. lia.
    - intros ev e p He Hp. rewrite (E0 _ _ He) in Hp. destruct Hp.
    - intros ev e p He Hp. rewrite (E0 _ _ He) in Hp. discriminate.
    - intros ev e c He Hp. rewrite (E0 _ _ He) in Hp. destruct Hp.
    - intros p r Hr. fold S0 in Hr. rewrite P0 in Hr. discriminate.
    - intros p r Hr. fold S0 in Hr. rewrite P0 in Hr. discriminate.
    - intros p r Hr. fold S0 in Hr. rewrite P0 in Hr. discriminate.
    - exact R0.
    - intros _. exact R0.
    - intros p r Hr. fold S0 in Hr. rewrite P0 in Hr. discriminate.
    - split; constructor. }
  assert (T : tri2 (initialise (dkeys (snames s)) env) S0 (fun _ _ => True)).
  { unfold initialise. eapply tri2_bind with (Q1 := fun _ _ => True); [apply tri2_spawn; cbn; eauto; tauto|]. intros _ S1 H1 W1 _.
    eapply tri2_bind with (Q1 := fun _ _ => True); [apply make_extras_ok; exact H1|]. intros _ S2 H2 W2 _.
    eapply tri2_bind with (Q1 := fun _ _ => True); [apply tri2_new_act; [exact H2|apply Inv_pact]|]. intros _ S3 H3 W3 _.
    destruct env as [g|]; [|apply tri2_ret; auto].
    eapply tri2_bind with (Q1 := fun _ _ => True).
    - apply tri2_spawn; cbn; eauto. intros _. rewrite (w_hasenv _ _ W3), (w_hasenv _ _ W2), (w_hasenv _ _ W1). reflexivity.
    - intros _ S4 H4 W4 _. apply tri2_new_act; [exact H4|apply Inv_eact]. }
  unfold tri2 in T. destruct (initialise _ _ S0) as [S1 x]. apply T.
Qed.

Theorem sim_ok O t s env S : sim_runs O (sim_init t s env) S -> Inv S.
Proof. intros H. remember (sim_init t s env) as S0 eqn:E. induction H as [|S0 S1 S2 R IH Hs]; [subst; apply init_ok|]. eapply step_ok; eauto. Qed.

(** ** The clock *)

Lemma exec_defuse_now ev S : now (exec_ (defuse ev) S) = now S.
Proof. unfold exec_, defuse, set_event, upd_. cbn. destruct (nth_error _ _); reflexivity. Qed.
Lemma set_prc_now p f S : now (set_prc p f S) = now S.
Proof. unfold set_prc. destruct (nth_error _ _); reflexivity. Qed.
Lemma hand_over_now p ev S : now (hand_over p ev S) = now S.
Proof.
  unfold hand_over. destruct (event_at ev S) as [e|]; [|reflexivity].
  assert (A : forall f, now (set_prc p f (exec_ (add_cb ev (CResume p)) S)) = now S).
  { intros f. rewrite set_prc_now. unfold exec_, add_cb, set_event, upd_. cbn. destruct (nth_error _ _); reflexivity. }
  destruct (ecbs e); [apply A|]. destruct (evalue e) as [[v|t]|]; [reflexivity|cbn [now set_todo]; apply exec_defuse_now|apply A].
Qed.
Lemma end_process_now p o S : now (end_process p o S) = now S.
Proof.
  unfold end_process. generalize (own_event p S). intros ev. unfold exec_, bind, set_event, schedule, upd_. cbn.
  destruct (nth_error (evs (set_prc p _ S)) ev); cbn [now set_evs]; apply set_prc_now.
Qed.
Lemma work_clock O w l S : Inv S -> todo S = w :: l -> now (work_off O w (set_todo l S)) = now S.
Proof.
  intros H E. destruct (Inv_tail _ _ _ H E) as [H1 _]. destruct w as [ev [p|p|c]|p o|ev]; cbn [work_off].
  - destruct (event_at _ _) as [e|]; [|reflexivity]. destruct (evalue e) as [[v|t]|]; try reflexivity. cbn [now set_todo]. rewrite exec_defuse_now; reflexivity.
  - destruct (ended _ _); [reflexivity|]. destruct (nth_error _ _) as [r|]; [|reflexivity]. cbn [now set_todo].
    unfold exec_, set_event, upd_. cbn. destruct (nth_error _ _); reflexivity.
  - assert (Hin : In (WCb ev (CCheck c)) (todo S)) by (rewrite E; left; reflexivity).
    pose proof (tri_check all_codes c ev (set_todo l S) (fun _ _ => True) H1 (i_chkw _ H _ _ Hin) (fun _ => I)) as T. unfold tri in T.
    unfold exec_. destruct (check c ev (set_todo l S)) as [S2 x]. destruct T as (_ & F & _). apply (f_now _ _ _ F).
  - change (nth_error (prs (set_todo l S)) p) with (proc_at p S). destruct (proc_at p S) as [r|] eqn:Hr; [|reflexivity].
    pose proof (i_kind _ H1 p r Hr) as [Hk Hkn]. pose proof (i_fits _ H1 p r Hr) as Hf.
    assert (G : tri2 (go_on O p (pcode r) o) (set_todo l S) (lands (pkind r))).
    { apply (go_on_ok _ _ _ _ _ (ptarget r)); auto; [destruct Hk; auto|apply (i_env _ H1 _ _ Hr)|].
      intros v t -> D. apply (i_due _ H p r v t Hr); [|exact D]. rewrite E. left. reflexivity. }
    unfold tri2 in G. destruct (go_on O p (pcode r) o (set_todo l S)) as [S2 x]. destruct G as (_ & W & _).
    pose proof (w_now _ _ W) as N. cbn in N. destruct x as [[c ev|v]|t]; rewrite ?hand_over_now, ?end_process_now, ?set_prc_now; exact N.
  - destruct (event_at _ _) as [e|]; [|reflexivity]. destruct (evalue e) as [[v|t]|]; try reflexivity. destruct (edefused e); reflexivity.
Qed.
Theorem step_clock O S S' : Inv S -> sim_step O S = Some S' -> (now S <= now S')%Z.
Proof.
  intros H. unfold sim_step. destruct (dead S); [discriminate|]. destruct (todo S) as [|w l] eqn:Et.
  - destruct (pop_min (heap S)) as [[q h]|] eqn:Ep; [|discriminate]. cbv zeta. change (event_at (qev q) (set_now (qtime q) (set_queue (eid S) h S))) with (event_at (qev q) S).
    destruct (pop_min_ok _ _ _ Ep) as [Hq _]. destruct (i_heap _ H _ Hq) as (L & e & He & _). rewrite He. intros [= <-].
    cbn [now set_todo]. unfold exec_, set_event, upd_. cbn. change (nth_error (evs S) (qev q)) with (event_at (qev q) S). rewrite He. exact L.
  - intros [= <-]. rewrite work_clock by assumption. lia.
Qed.
