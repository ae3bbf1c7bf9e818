(** Entries of the queue belong to different events that have not been processed, and who is interrupted. *)
From Coq Require Import Lia.
From Verif Require Import Base BaseFacts Chunks DecMem Buffers BufferFacts Productions ProdSpec LearnFacts Sim SimFacts RunFacts QueueFacts FailFacts.
Local Open Scope string_scope.
Local Open Scope list_scope.
Local Open Scope nat_scope.

Record LU (S : sim) : Prop := MkLU {
  lu_dup : NoDup (map qev (heap S));
  lu_live : forall q, In q (heap S) -> exists e, event_at (qev q) S = Some e /\ ecbs e <> None /\ evalue e <> None;
  lu_val : forall ev e, event_at ev S = Some e -> ecbs e = None -> evalue e <> None;
  lu_int : forall ev e B, event_at ev S = Some e -> erole e = RInt B -> evalue e <> None }.

Lemma LU_same S S' : heap S' = heap S -> evs S' = evs S -> LU S -> LU S'.
Proof. intros A B [C D E F]. constructor; unfold event_at in *; rewrite ?A, ?B; assumption. Qed.
Lemma LU_added e S : (ecbs e = None -> evalue e <> None) -> (forall B, erole e = RInt B -> evalue e <> None) -> LU S -> LU (added e S).
Proof.
  intros He Hi [A B C D]. constructor; [exact A| | |].
  - intros q Hq. destruct (B q Hq) as (x & X & Y). exists x. split; [apply at_added_old; exact X|exact Y].
  - intros ev x Hx. rewrite at_added in Hx. destruct (Nat.eqb ev (List.length (evs S))); [injection Hx as <-; exact He|exact (C ev x Hx)].
  - intros ev x B0 Hx. rewrite at_added in Hx. destruct (Nat.eqb ev (List.length (evs S))); [injection Hx as <-; apply Hi|exact (D ev x B0 Hx)].
Qed.
Lemma LU_queued prio d ev e S : event_at ev S = Some e -> ecbs e <> None -> evalue e <> None -> (forall q, In q (heap S) -> qev q <> ev) -> LU S -> LU (queued prio d ev S).
Proof.
  intros He Hc Hv Hn [A B C D]. constructor; [| |exact C|exact D].
  - unfold queued. cbn [heap set_queue]. rewrite map_app. cbn [map]. apply NoDup_Add with (a := ev) (l := map qev (heap S)); [rewrite <- (app_nil_r (map qev (heap S))) at 1; apply Add_app|].
    split; [exact A|]. intros X. apply in_map_iff in X. destruct X as (q & E & X). exact (Hn q X E).
  - intros q Hq. unfold queued in Hq. cbn [heap set_queue] in Hq. apply in_app_or in Hq. destruct Hq as [Hq|[<-|[]]]; [exact (B q Hq)|]. exists e. auto.
Qed.
Lemma LU_changed ev e e' S : event_at ev S = Some e -> (evalue e <> None -> evalue e' <> None) -> (ecbs e' = None -> ecbs e = None) -> erole e' = erole e -> LU S -> LU (changed ev e' S).
Proof.
  intros He Hv Hc Hr [A B C D]. constructor; [exact A| | |].
  - intros q Hq. destruct (B q Hq) as (x & X & Y & Z). rewrite (at_changed _ _ _ _ _ He). destruct (Nat.eqb_spec (qev q) ev) as [E|_]; [|eauto]. exists e'. assert (x = e) by congruence. subst x. split; [reflexivity|]. split; auto.
  - intros i x Hx. rewrite (at_changed _ _ _ _ _ He) in Hx. destruct (Nat.eqb_spec i ev) as [->|_]; [|exact (C i x Hx)]. injection Hx as <-. intros D0. exact (Hv (C _ _ He (Hc D0))).
  - intros i x B0 Hx. rewrite (at_changed _ _ _ _ _ He) in Hx. destruct (Nat.eqb_spec i ev) as [->|_]; [|exact (D i x B0 Hx)]. injection Hx as <-. rewrite Hr. intros R. exact (Hv (D _ _ _ He R)).
Qed.
Lemma LU_new prio d e S : ecbs e <> None -> evalue e <> None -> LU S -> LU (queued prio d (List.length (evs S)) (added e S)).
Proof.
  intros A B H. apply LU_queued with (e := e); auto; [rewrite at_added, Nat.eqb_refl; reflexivity| |apply LU_added; auto].
  intros q Hq E. destruct (lu_live _ H q Hq) as (x & X & _). apply at_old in X. lia.
Qed.
Lemma LU_set prio d ev e o S : event_at ev S = Some e -> evalue e = None -> LU S -> LU (queued prio d ev (changed ev (valued o e) S)).
Proof.
  intros He Hv H. apply LU_queued with (e := valued o e).
  - rewrite (at_changed _ _ _ _ _ He), Nat.eqb_refl. reflexivity.
  - intros D. exact (lu_val _ H ev e He D Hv).
  - discriminate.
  - intros q Hq E. destruct (lu_live _ H q Hq) as (x & X & _ & Y). rewrite E in X. congruence.
  - apply (LU_changed ev e); auto.
Qed.
Lemma LU_finished p r o e S : event_at (pown r) S = Some e -> evalue e = None -> LU S -> LU (finished p r o e S).
Proof. intros He Hv H. unfold finished. apply LU_set; auto. apply (LU_same S); auto. Qed.
Lemma LU_spawned c S : LU S -> LU (spawned c S).
Proof.
  intros H. set (e1 := MkEvt (ROwn (List.length (prs S))) None false (Some [])). set (e2 := MkEvt (RInit (List.length (prs S))) (Some (Good XUnit)) false (Some [CResume (List.length (prs S))])).
  assert (H1 : LU (added e1 S)) by (apply LU_added; [discriminate|discriminate|exact H]).
  assert (H2 : LU (queued URGENT 0 (List.length (evs (added e1 S))) (added e2 (added e1 S)))) by (apply LU_new; [discriminate|discriminate|exact H1]).
  revert H2. apply LU_same; [|reflexivity]. unfold spawned, queued. cbn [heap set_queue set_prs set_evs evs added now eid]. rewrite app_length. cbn [List.length]. rewrite Nat.add_1_r. reflexivity.
Qed.

(** ** What the code of a process does to the queue *)

(** [X]: who may be interrupted. *)
Record Fr (X : nat -> Prop) (S S' : sim) : Prop := MkFr {
  fr_lu : LU S -> LU S';
  fr_int : forall q B, LU S -> In q (heap S') -> role_at (qev q) (RInt B) S' -> (In q (heap S) /\ role_at (qev q) (RInt B) S) \/ X B;
  fr_prs : prs S' = prs S;
  fr_ss : ss S' = ss S;
  fr_ext : extras S' = extras S;
  fr_env : hasenv S' = hasenv S;
  fr_acted : Acted S -> Acted S' }.
Lemma Fr_same X S S' : heap S' = heap S -> evs S' = evs S -> prs S' = prs S -> ss S' = ss S -> extras S' = extras S -> hasenv S' = hasenv S -> pact S' = pact S -> acts S' = acts S -> Fr X S S'.
Proof.
  intros A B C D E F G H. constructor; auto; [apply LU_same; auto| |unfold Acted, role_at, event_at; rewrite B, G, H; auto].
  intros q p _ Hq (e & He & R). left. rewrite A in Hq. split; [exact Hq|]. exists e. unfold event_at in *. rewrite <- B. auto.
Qed.
Lemma Fr_refl X S : Fr X S S. Proof. apply Fr_same; reflexivity. Qed.
Lemma Fr_trans X S1 S2 S3 : Fr X S1 S2 -> Fr X S2 S3 -> Fr X S1 S3.
Proof.
  intros A B. constructor; try (etransitivity; [apply B|apply A]).
  - intros H. exact (fr_lu _ _ _ B (fr_lu _ _ _ A H)).
  - intros q p L H R. destruct (fr_int _ _ _ B q p (fr_lu _ _ _ A L) H R) as [[H' R']|H']; [exact (fr_int _ _ _ A q p L H' R')|right; exact H'].
  - intros H. exact (fr_acted _ _ _ B (fr_acted _ _ _ A H)).
Qed.
Lemma Acted_later S S' : (forall ev r, role_at ev r S -> role_at ev r S') -> pact S' = pact S -> acts S' = acts S -> Acted S -> Acted S'.
Proof. intros H P A [B C]. split; [rewrite P; auto|rewrite A; eauto]. Qed.
Lemma Fr_added (X : nat -> Prop) e S : (ecbs e = None -> evalue e <> None) -> (forall B, erole e <> RInt B) -> Fr X S (added e S).
Proof.
  intros He Hr. constructor; try reflexivity; [apply LU_added; [exact He|]; intros B R; elim (Hr B R)| |apply Acted_later; try reflexivity; intros ev r; apply role_added].
  intros q B _ Hq (x & Hx & R). rewrite at_added in Hx. destruct (Nat.eqb (qev q) (List.length (evs S))); [injection Hx as <-; elim (Hr B R)|].
  left. split; [exact Hq|]. exists x. auto.
Qed.
Lemma Fr_new (X : nat -> Prop) prio d e S : ecbs e <> None -> evalue e <> None -> (forall B, erole e = RInt B -> X B) -> Fr X S (queued prio d (List.length (evs S)) (added e S)).
Proof.
  intros A B Hr. constructor; try reflexivity; [apply LU_new; auto| |apply Acted_later; try reflexivity; intros ev r; apply role_added]. intros q p _ Hq (x & Hx & R). unfold queued in Hq, Hx. cbn [heap set_queue] in Hq. change (event_at (qev q) (added e S) = Some x) in Hx. rewrite at_added in Hx.
  destruct (Nat.eqb_spec (qev q) (List.length (evs S))) as [E|N]; [injection Hx as <-; right; auto|]. left. apply in_app_or in Hq. destruct Hq as [Hq|[<-|[]]]; [|elim N; reflexivity]. split; [exact Hq|]. exists x. auto.
Qed.
Lemma role_set ev e e' S : event_at ev S = Some e -> erole e' = erole e -> forall i r, role_at i r S -> role_at i r (changed ev e' S).
Proof. intros He R i r (x & Hx & Rx). unfold role_at. rewrite (at_changed _ _ _ _ _ He). destruct (Nat.eqb_spec i ev) as [->|_]; [exists e'; split; [reflexivity|congruence]|eauto]. Qed.
Lemma Fr_set (X : nat -> Prop) prio d ev e o S : event_at ev S = Some e -> evalue e = None -> Fr X S (queued prio d ev (changed ev (valued o e) S)).
Proof.
  intros He Hv. constructor; try reflexivity; [apply LU_set; auto| |apply Acted_later; try reflexivity; apply (role_set ev e (valued o e) S He eq_refl)]. intros q p L Hq (x & Hx & R). cbn [queued heap set_queue] in Hq. change (event_at (qev q) (changed ev (valued o e) S) = Some x) in Hx. rewrite (at_changed _ _ _ _ _ He) in Hx.
  destruct (Nat.eqb_spec (qev q) ev) as [E|N]; [injection Hx as <-; elim (lu_int _ L _ _ _ He R Hv)|]. left. apply in_app_or in Hq. destruct Hq as [Hq|[<-|[]]]; [|elim N; reflexivity]. split; [exact Hq|]. exists x. auto.
Qed.

Section Triples.
Variable X : nat -> Prop.
Definition fr {A} (m : M A) (S : sim) : Prop := Acted S -> Fr X S (fst (m S)).
Lemma fr_bind {A B} (m : M A) (k : A -> M B) S : fr m S -> (forall a S', m S = (S', inl a) -> Fr X S S' -> fr (k a) S') -> fr (bind m k) S.
Proof.
  intros H K Ha. specialize (H Ha). unfold bind. destruct (m S) as [S' [a|t]] eqn:Em; cbn [fst] in *; [|exact H]. apply (Fr_trans _ _ _ _ H). apply (K a S' eq_refl H). exact (fr_acted _ _ _ H Ha).
Qed.
Lemma fr_get {B} (k : sim -> M B) S : fr (k S) S -> fr (bind get k) S.
Proof. intros K. apply fr_bind; [intros _; apply Fr_refl|]. intros a S' [= <- <-] _. exact K. Qed.
Lemma fr_ret {A} (a : A) S : fr (ret a) S. Proof. intros _. apply Fr_refl. Qed.
Lemma fr_throw {A} t S : fr (@throw A t) S. Proof. intros _. apply Fr_refl. Qed.
Lemma fr_upd f S : heap (f S) = heap S -> evs (f S) = evs S -> prs (f S) = prs S -> ss (f S) = ss S -> extras (f S) = extras S -> hasenv (f S) = hasenv S -> (Acted S -> Acted (f S)) -> fr (upd_ f) S.
Proof.
  intros A B C D F G H _. cbn [upd_ fst]. constructor; auto; [apply LU_same; auto|]. intros q p _ Hq (e & He & R). left. rewrite A in Hq. split; [exact Hq|]. exists e. unfold event_at in *. rewrite <- B. auto.
Qed.
Lemma fr_new_event r S : (forall B, r <> RInt B) -> fr (new_event r) S.
Proof. intros H _. apply (Fr_added X (MkEvt r None false (Some []))); [discriminate|exact H]. Qed.
Lemma fr_timeout d S : fr (timeout d) S.
Proof. intros _. rewrite timeout_eq. destruct (Z.ltb d 0); [apply Fr_refl|]. apply Fr_new; cbn; discriminate. Qed.
Lemma fr_succeed ev r S : role_at ev r S -> fr (succeed ev) S.
Proof.
  intros (e & He & _) _.
  destruct (evalue e) eqn:Hv; [unfold succeed, bind, get, trig, triggered; rewrite He, Hv; apply Fr_refl|]. rewrite (succeed_eq _ _ _ He Hv). apply Fr_set; assumption.
Qed.
Lemma fr_interrupt a p S : X p -> fr (interrupt a p) S.
Proof.
  intros Hp _. unfold interrupt, bind, get. destruct (ended p S); [apply Fr_refl|]. destruct (Nat.eqb a p); [apply Fr_refl|]. apply (Fr_new X URGENT 0 (MkEvt (RInt p) (Some (Bad TInterrupt)) true (Some [CInt p])) S); try discriminate. intros B [= <-]. exact Hp.
Qed.
Lemma act_of_eq n S : act_of n S = (S, match dget (acts S) n with Some ev => inl ev | None => inr (TExn EKey) end).
Proof. unfold act_of, bind, get. destruct (dget (acts S) n); reflexivity. Qed.
Lemma fr_act {B} n (k : nat -> M B) S : (forall ev, dget (acts S) n = Some ev -> fr (k ev) S) -> fr (bind (act_of n) k) S.
Proof. intros K. apply fr_bind; [intros _; rewrite act_of_eq; apply Fr_refl|]. intros ev S' H _. rewrite act_of_eq in H. destruct (dget (acts S) n) as [x|] eqn:D; [|discriminate]. injection H as <- <-. auto. Qed.
Lemma fr_use {A} (m : M A) S : (Acted S -> fr m S) -> fr m S. Proof. intros H Ha. exact (H Ha Ha). Qed.
Lemma fr_activate e S : fr (activate e) S.
Proof.
  unfold activate. apply fr_get. assert (K : fr (if String.eqb (eproc e) PROCEDURAL then ret tt else if trig S (pact S) then ret tt else succeed (pact S)) S).
  { destruct (String.eqb (eproc e) PROCEDURAL); [apply fr_ret|]. destruct (trig S (pact S)); [apply fr_ret|]. apply fr_use. intros [Hp _]. apply (fr_succeed _ RAct). exact Hp. }
  destruct (ewhat e); first [exact K|apply fr_ret].
Qed.
Lemma fr_note e S : fr (note e) S. Proof. apply fr_upd; try reflexivity. auto. Qed.
Lemma fr_interact S : hasenv S = false -> fr interact S.
Proof. intros H. unfold interact. apply fr_get. rewrite H. apply fr_ret. Qed.
Variable E : dict nat.
Hypothesis Hx : forall n p, dget E n = Some p -> X p.
Lemma fr_launch a pr S : extras S = E -> fr (launch a pr) S.
Proof.
  intros HE.
  assert (I : forall n S, extras S = E -> fr (interrupt_extra a n) S). { intros n S0 H0. unfold interrupt_extra. apply fr_get. rewrite H0. destruct (dget E n) eqn:D; [apply fr_interrupt; exact (Hx _ _ D)|apply fr_throw]. }
  assert (U : forall n id S, fr (upd_ (fun S => set_inter (dset (inter S) n id) S)) S) by (intros n id S0; apply fr_upd; try reflexivity; auto).
  assert (K : forall n id (b : bool), fr (let! ev := act_of n in
      let! S := get in
      if trig S ev then
        match dget (inter S) n with
        | Some id' =>
            if Nat.eqb id id' then ret tt
            else upd_ (fun S => set_inter (dset (inter S) n id) S) ;! interrupt_extra a n
        | None => ret tt
        end
      else (if b then upd_ (fun S => set_inter (dset (inter S) n id) S) else ret tt) ;! succeed ev) S).
  { intros n id b. apply fr_use. intros [_ Ha]. apply fr_act. intros ev D. specialize (Ha n ev D). apply fr_get. destruct (trig S ev).
    - destruct (dget (inter S) n) as [id'|]; [|apply fr_ret]. destruct (Nat.eqb id id'); [apply fr_ret|]. apply fr_bind; [apply U|]. intros u S' E' _. injection E' as <- _. apply I. exact HE.
    - apply fr_bind; [destruct b; [apply U|apply fr_ret]|]. intros u S' E' _. apply (fr_succeed _ RAct). destruct b; injection E' as <- _; exact Ha. }
  unfold launch. destruct pr as [|id n m j c bs t|id n m j c t]; [apply fr_throw|apply K|apply (K n id false)].
Qed.
Lemma fr_launch_all a l : forall S, extras S = E -> fr (launch_all a l) S.
Proof. induction l as [|p l IH]; intros S HE; [apply fr_ret|]. cbn [launch_all]. apply fr_bind; [apply fr_launch; exact HE|]. intros u S' _ F. apply IH. rewrite (fr_ext _ _ _ F). exact HE. Qed.
End Triples.
