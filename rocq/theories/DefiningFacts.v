(** The rules of a model after several calls. *)
From Verif Require Import Base BaseFacts Strings Signatures SignatureSpec SignatureFacts Defining DefiningSpec HarvestFacts.
Local Open Scope string_scope.
Local Open Scope list_scope.

Lemma rules_get fs : forall d d' n, load_rules fs d = Ok d' ->
  (exists f u r, last_called fs n f /\ dget d' n = Some (BFunction f, u, r) /\ from_signature f "utility" (Some 0%Q) = Ok u /\ from_signature f "reward" None = Ok r) \/
  ((forall f, In f fs -> fname f <> n) /\ dget d' n = dget d n).
Proof.
  induction fs as [|f fs IH]; intros d d' n H; cbn [load_rules] in H; [injection H as <-; right; split; [intros f []|reflexivity]|].
  destruct (from_signature f "utility" (Some 0%Q)) as [u|] eqn:U; [|discriminate]. cbn [rbind] in H. destruct (from_signature f "reward" None) as [r|] eqn:R; [|discriminate]. cbn [rbind] in H.
  destruct (IH _ _ n H) as [(g & u' & r' & (l1 & l2 & E & A) & B)|[N E]].
  - left. exists g, u', r'. split; [|exact B]. exists (f :: l1), l2. split; [rewrite E; reflexivity|exact A].
  - destruct (string_dec (fname f) n) as [Ef|Nf].
    + left. exists f, u, r. split; [exists [], fs; auto|]. rewrite <- Ef in E |- *. rewrite dget_dset_eq in E. auto.
    + right. split; [intros g [<-|Hg]; auto|]. rewrite dget_dset_neq in E by exact Nf. exact E.
Qed.
Lemma rules_load fs : forall d d0, (exists d', load_rules fs d = Ok d') <-> (exists d', load fs d0 = Ok d').
Proof.
  induction fs as [|f fs IH]; intros d d0; cbn [load_rules load]; [split; eauto|].
  destruct (from_signature f "utility" (Some 0%Q)) as [u|]; [|split; intros [? [=]]]. cbn [rbind].
  destruct (from_signature f "reward" None) as [r|]; [|split; intros [? [=]]]. cbn [rbind]. apply IH.
Qed.

Lemma anew_get fs d n e : Forall plainly fs -> load_rules fs [] = Ok d -> (dget d n = Some e <-> gives (DFunctions fs) n e).
Proof.
  intros F L. assert (SA : starts_anew (DFunctions fs)).
  { exists fs. split; [reflexivity|]. apply (proj1 (load_fine fs F [])). apply (proj1 (rules_load fs [] [])). eauto. }
  rewrite Forall_forall in F. destruct (rules_get _ _ _ n L) as [(f & u & r & Lc & G & U & R)|[N G]].
  - assert (Pf : plainly f) by (destruct Lc as (l1 & l2 & -> & _); apply F; apply in_or_app; right; left; reflexivity). destruct Pf as (W & S1 & S2). split.
    + intros X. rewrite G in X. injection X as <-. right. split; [exact SA|]. exists fs, f, u, r. split; [reflexivity|]. split; [exact Lc|].
      split; [apply read_means; assumption|]. split; [apply read_means; assumption|reflexivity].
    + intros [(s & ? & ? & x & [=] & _)|(_ & fs' & g & u' & r' & [= <-] & Lg & Mu & Mr & ->)]. assert (f = g) by exact (last_unique _ _ _ _ Lc Lg). subst g.
      apply (read_means f _ _ W S1) in Mu. apply (read_means f _ _ W S2) in Mr. rewrite U in Mu. rewrite R in Mr. injection Mu as ->. injection Mr as ->. exact G.
  - split; [rewrite G; discriminate|]. intros [(s & ? & ? & x & [=] & _)|(_ & fs' & g & u' & r' & [= <-] & (l1 & l2 & -> & Ng & _) & _)].
    elim (N g); [apply in_or_app; right; left; reflexivity|exact Ng].
Qed.
Lemma one_call d c n e : plain_call c -> (dget (fst (define d c)) n = Some e <-> gives c n e \/ (spares c n /\ dget d n = Some e)).
Proof.
  destruct c as [fs|m s u r]; intros P; cbn [define].
  - destruct (load_rules fs []) as [d'|x] eqn:L; cbn [fst].
    + rewrite (anew_get fs d' n e P L). split; [auto|]. intros [H|[[H _] _]]; [exact H|]. elim H. exists fs. split; [reflexivity|].
      apply (proj1 (load_fine fs P [])). apply (proj1 (rules_load fs [] [])). eauto.
    + assert (N : ~ starts_anew (DFunctions fs)).
      { intros (fs' & [= <-] & H). apply (proj2 (load_fine fs P [])) in H. apply (proj2 (rules_load fs [] [])) in H. destruct H as [? H]. congruence. }
      assert (G : forall e', ~ gives (DFunctions fs) n e') by (intros e' [(? & ? & ? & ? & [=] & _)|(H & _)]; exact (N H)).
      split; [intros H; right; split; [split; assumption|exact H]|]. intros [H|[_ H]]; [elim (G _ H)|exact H].
  - assert (N : ~ starts_anew (DString m s u r)) by (intros (? & [=] & _)).
    destruct (productionstring m s) as [x|x] eqn:E; cbn [fst].
    + rewrite dget_dset. destruct (String.eqb_spec m n) as [->|M].
      * assert (G : gives (DString n s u r) n (BString x, u, r)) by (left; exists s, u, r, x; auto). split; [intros [= <-]; auto|].
        intros [[(s' & u' & r' & x' & [= <- <- <-] & E' & ->)|(H & _)]|[[_ H] _]]; [congruence|elim (N H)|elim (H _ G)].
      * assert (G : forall e', ~ gives (DString m s u r) n e') by (intros e' [(? & ? & ? & ? & [=] & _)|(H & _)]; [auto|exact (N H)]).
        split; [intros H; right; split; [split; assumption|exact H]|]. intros [H|[_ H]]; [elim (G _ H)|exact H].
    + assert (G : forall e', ~ gives (DString m s u r) n e') by (intros e' [(? & ? & ? & ? & [= <- <- <- <-] & E' & _)|(H & _)]; [congruence|exact (N H)]).
      split; [intros H; right; split; [split; assumption|exact H]|]. intros [H|[_ H]]; [elim (G _ H)|exact H].
Qed.
Theorem defined_exactly l : forall d n e, Forall plain_call l ->
  (dget (define_all d l) n = Some e <->
   (exists l1 c l2, l = l1 ++ c :: l2 /\ gives c n e /\ Forall (fun c' => spares c' n) l2) \/ (Forall (fun c' => spares c' n) l /\ dget d n = Some e)).
Proof.
  induction l as [|c l IH]; intros d n e F.
  - split; [intros H; right; auto|]. intros [(l1 & c & l2 & E & _)|[_ H]]; [destruct l1; discriminate|exact H].
  - inversion F as [|? ? Fc Fl]; subst. change (define_all d (c :: l)) with (define_all (fst (define d c)) l). rewrite (IH _ n e Fl), (one_call d c n e Fc). split.
    + intros [(l1 & c' & l2 & -> & G & S)|[S [G|[Sc H]]]]; [left; exists (c :: l1), c', l2; auto|left; exists [], c, l; auto|right; auto].
    + intros [(l1 & c' & l2 & E & G & S)|[S H]].
      * destruct l1 as [|c0 l1]; cbn in E; injection E as -> ->; [right; auto|left; exists l1, c', l2; auto].
      * inversion S; subst. right. auto.
Qed.
Theorem failed_definition d c d' x : define d c = (d', Err x) -> d' = d.
Proof. destruct c as [fs|n s u r]; cbn [define]; [destruct (load_rules fs [])|destruct (productionstring n s)]; intros [=]; auto. Qed.
(** Rules written as strings are in the order in which their names were used first. *)
Theorem strings_order l : forall d, Forall (fun c => exists n s u r, c = DString n s u r) l ->
  dkeys (define_all d l) = dkeys d ++ firsts (dkeys d) (flat_map string_name l).
Proof.
  induction l as [|c l IH]; intros d F; [cbn; rewrite app_nil_r; reflexivity|]. inversion F as [|? ? (n & s & u & r & ->) Fl]; subst.
  change (define_all d (DString n s u r :: l)) with (define_all (fst (define d (DString n s u r))) l). rewrite (IH _ Fl). cbn [flat_map string_name define].
  destruct (productionstring n s) as [x|]; cbn [fst app]; [|reflexivity]. cbn [firsts]. rewrite dkeys_dset. destruct (dmem d n) eqn:M.
  - destruct (in_dec string_dec n (dkeys d)) as [_|N]; [reflexivity|]. elim N. exact (dmem_key _ _ M).
  - destruct (in_dec string_dec n (dkeys d)) as [I|_]; [|rewrite <- app_assoc; reflexivity]. exfalso. unfold dmem in M. destruct (dget d n) eqn:G; [discriminate|].
    exact (proj1 (dget_None d n) G I).
Qed.
