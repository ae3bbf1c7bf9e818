(** The defaults of rule functions are read correctly. *)
From Coq Require Import Lia.
From Verif Require Import Base BaseFacts Signatures SignatureSpec.
Local Open Scope string_scope.
Local Open Scope list_scope.

Lemma index_app n l1 : forall l2, ~ In n l1 -> index_of n (l1 ++ n :: l2) = Some (List.length l1).
Proof.
  induction l1 as [|x l1 IH]; intros l2 H; cbn [app index_of]; [rewrite String.eqb_refl; reflexivity|].
  destruct (String.eqb_spec x n) as [->|N]; [elim H; left; reflexivity|]. rewrite IH; [reflexivity|]. intros X. apply H. right. exact X.
Qed.
Lemma index_none n l : ~ In n l -> index_of n l = None.
Proof.
  induction l as [|x l IH]; intros H; cbn [index_of]; [reflexivity|]. destruct (String.eqb_spec x n) as [->|N]; [elim H; left; reflexivity|]. rewrite IH; [reflexivity|]. intros X. apply H. right. exact X.
Qed.
Notation vals l := (flat_map (fun p : string * option num => match snd p with Some v => [v] | None => [] end) l).
Lemma vals_none l : (forall p, In p l -> snd p = None) -> vals l = [].
Proof. induction l as [|p l IH]; intros H; [reflexivity|]. cbn [flat_map]. rewrite (H p) by (left; reflexivity). apply IH. intros q Hq. apply H. right. exact Hq. Qed.
Lemma vals_length l : (forall p, In p l -> snd p <> None) -> List.length (vals l) = List.length l.
Proof.
  induction l as [|p l IH]; intros H; [reflexivity|]. cbn [flat_map]. rewrite app_length, IH by (intros q Hq; apply H; right; exact Hq).
  destruct (snd p) eqn:E; [reflexivity|]. elim (H p); [left; reflexivity|exact E].
Qed.
Lemma nth_mid {A} (l1 : list A) x l2 : nth_error (l1 ++ x :: l2) (List.length l1) = Some x.
Proof. rewrite nth_error_app2, Nat.sub_diag by lia. reflexivity. Qed.
Lemma nodup_left {A} (l1 l2 : list A) : NoDup (l1 ++ l2) -> NoDup l1.
Proof. induction l1 as [|x l1 IH]; intros H; [constructor|]. inversion H as [|a b Ha Hb]; subst. constructor; [intros X; apply Ha; apply in_or_app; left; exact X|apply IH; exact Hb]. Qed.
Lemma nodup_mid {A} (l1 : list A) x l2 : NoDup (l1 ++ x :: l2) -> ~ In x l1.
Proof. intros H X. apply NoDup_remove_2 in H. apply H. apply in_or_app. left. exact X. Qed.

Lemma read_said f n dft v : written_well f -> In (n, Some v) (fargs f) -> from_signature f n dft = Ok v.
Proof.
  intros [Nd (a & b & E & Ha & Hb)] Hin. apply nodup_left in Nd. unfold from_signature, arg_names, arg_defaults. rewrite E in *.
  assert (Hib : In (n, Some v) b) by (apply in_app_or in Hin; destruct Hin as [X|X]; [pose proof (Ha _ X) as Y; discriminate Y|exact X]).
  apply in_split in Hib. destruct Hib as (b1 & b2 & ->). rewrite !map_app in *. cbn [map fst] in *. rewrite app_assoc in *.
  rewrite (index_app n (map fst a ++ map fst b1)) by exact (nodup_mid _ _ _ Nd).
  rewrite flat_map_app, (vals_none a Ha). cbn [app]. assert (Lb : List.length (vals (b1 ++ (n, Some v) :: b2)) = List.length (b1 ++ (n, Some v) :: b2)) by (apply vals_length; exact Hb).
  assert (L1 : List.length (vals b1) = List.length b1) by (apply vals_length; intros p Hp; apply Hb; apply in_or_app; left; exact Hp).
  destruct (vals (b1 ++ (n, Some v) :: b2)) as [|z zs] eqn:Ez; [rewrite app_length in Lb; cbn in Lb; lia|]. rewrite <- Ez in *. clear Ez z zs. cbv zeta.
  rewrite Lb. rewrite !app_length, !map_length. cbn [List.length]. rewrite map_length.
  assert (P : (List.length a + List.length b1 + Datatypes.S (List.length b2) - (List.length a + List.length b1))%nat = Datatypes.S (List.length b2)) by lia. rewrite P.
  assert (Q1 : (Datatypes.S (List.length b2) <=? List.length b1 + Datatypes.S (List.length b2))%nat = true) by (apply Nat.leb_le; lia). rewrite Q1.
  assert (Q2 : (List.length b1 + Datatypes.S (List.length b2) - Datatypes.S (List.length b2))%nat = List.length (vals b1)) by lia. rewrite Q2.
  rewrite flat_map_app. cbn [flat_map snd app]. rewrite nth_mid. reflexivity.
Qed.
Lemma read_absent f n dft : ~ In n (map fst (fargs f)) -> from_signature f n dft = Ok dft.
Proof. intros H. unfold from_signature, arg_names. rewrite (index_none _ _ H). reflexivity. Qed.
Lemma read_demanded f n dft : written_well f -> In (n, None) (fargs f) -> exists e, from_signature f n dft = Err e /\ (e = EType \/ e = EIndex).
Proof.
  intros [Nd (a & b & E & Ha & Hb)] Hin. apply nodup_left in Nd. unfold from_signature, arg_names, arg_defaults. rewrite E in *.
  assert (Hia : In (n, None) a) by (apply in_app_or in Hin; destruct Hin as [X|X]; [exact X|elim (Hb _ X); reflexivity]).
  apply in_split in Hia. destruct Hia as (a1 & a2 & ->). rewrite <- app_assoc in *. cbn [app] in *. rewrite map_app in *. cbn [map fst] in *. rewrite (index_app n (map fst a1)) by exact (nodup_mid _ _ _ Nd).
  assert (Ev : vals (a1 ++ (n, None) :: a2 ++ b) = vals b).
  { change (a1 ++ (n, None) :: a2 ++ b) with (a1 ++ ((n, None) :: a2) ++ b). rewrite app_assoc, flat_map_app, (vals_none _ Ha). reflexivity. }
  rewrite Ev. pose proof (vals_length b Hb) as Lb. destruct (vals b) as [|z zs] eqn:Ez; [exists EType; auto|]. cbv zeta.
  rewrite app_length. cbn [List.length]. rewrite !map_length, app_length. rewrite <- Lb. cbn [List.length].
  assert (Q1 : (List.length a1 + Datatypes.S (List.length a2 + Datatypes.S (List.length zs)) - List.length a1 <=? Datatypes.S (List.length zs))%nat = false) by (apply Nat.leb_gt; lia).
  rewrite Q1. exists EIndex. auto.
Qed.
Lemma fargs_cases f n : (exists v, In (n, Some v) (fargs f)) \/ In (n, None) (fargs f) \/ ~ In n (map fst (fargs f)).
Proof.
  destruct (in_dec string_dec n (map fst (fargs f))) as [H|H]; [|auto]. apply in_map_iff in H. destruct H as ([n' [v|]] & <- & H); [left; exists v; exact H|right; left; exact H].
Qed.
Lemma read_means f n dft : written_well f -> not_starred f n -> forall v, from_signature f n dft = Ok v <-> means f n dft v.
Proof.
  intros W Ns v. assert (Ns' : forall x, ~ In (n, x) (fkwonly f)) by (intros x X; apply Ns; exact (in_map fst _ _ X)).
  destruct (fargs_cases f n) as [(v0 & H)|[H|H]].
  - rewrite (read_said f n dft v0 W H). split; [intros [= <-]; left; left; exact H|]. intros [[X|X]|[[X _] _]]; [|elim (Ns' _ X)|elim X; exact (in_map fst _ _ H)].
    pose proof (read_said f n dft v W X) as R. rewrite (read_said f n dft v0 W H) in R. exact R.
  - destruct (read_demanded f n dft W H) as (e & R & _). rewrite R. split; [discriminate|]. intros [[X|X]|[[X _] _]]; [|elim (Ns' _ X)|elim X; exact (in_map fst _ _ H)].
    pose proof (read_said f n dft v W X) as R'. congruence.
  - rewrite (read_absent f n dft H). split; [intros [= <-]; right; split; [split; assumption|reflexivity]|]. intros [[X|X]|[_ ->]]; [elim H; exact (in_map fst _ _ X)|elim (Ns' _ X)|reflexivity].
Qed.

Lemma load_get fs : forall d d' n, load fs d = Ok d' ->
  (exists f u r, last_called fs n f /\ dget d' n = Some (u, r) /\ from_signature f "utility" (Some 0%Q) = Ok u /\ from_signature f "reward" None = Ok r) \/
  ((forall f, In f fs -> fname f <> n) /\ dget d' n = dget d n).
Proof.
  induction fs as [|f fs IH]; intros d d' n H; cbn [load] in H; [injection H as <-; right; split; [intros f []|reflexivity]|].
  destruct (from_signature f "utility" (Some 0%Q)) as [u|] eqn:U; [|discriminate]. cbn [rbind] in H. destruct (from_signature f "reward" None) as [r|] eqn:R; [|discriminate]. cbn [rbind] in H.
  destruct (IH _ _ n H) as [(g & u' & r' & (l1 & l2 & E & A) & B)|[N E]].
  - left. exists g, u', r'. split; [|exact B]. exists (f :: l1), l2. split; [rewrite E; reflexivity|exact A].
  - destruct (string_dec (fname f) n) as [Ef|Nf].
    + left. exists f, u, r. split; [exists [], fs; auto|]. rewrite <- Ef in E |- *. rewrite dget_dset_eq in E. auto.
    + right. split; [intros g [<-|Hg]; auto|]. rewrite dget_dset_neq in E by exact Nf. exact E.
Qed.
Lemma last_unique fs n f g : last_called fs n f -> last_called fs n g -> f = g.
Proof.
  intros (l1 & l2 & E & Nf & Hf) (k1 & k2 & E' & Ng & Hg). subst fs. revert k1 E'. induction l1 as [|x l1 IH]; intros [|y k1] E'; cbn in E'; injection E' as Ex Er.
  - exact Ex.
  - elim (Hf g); [rewrite Er; apply in_or_app; right; left; reflexivity|exact Ng].
  - elim (Hg f); [rewrite <- Er; apply in_or_app; right; left; reflexivity|exact Nf].
  - exact (IH k1 Er).
Qed.
Theorem loaded_exactly old fs d : Forall plainly fs -> set_productions old fs = (d, Ok tt) ->
  forall n u r, dget d n = Some (u, r) <-> exists f, last_called fs n f /\ means f "utility" (Some 0%Q) u /\ means f "reward" None r.
Proof.
  intros F H n u r. unfold set_productions in H. destruct (load fs []) as [d'|] eqn:L; [|discriminate]. injection H as ->. rewrite Forall_forall in F.
  destruct (load_get _ _ _ n L) as [(f & u' & r' & Lc & G & U & R)|[N G]].
  - assert (Pf : plainly f) by (destruct Lc as (l1 & l2 & -> & _); apply F; apply in_or_app; right; left; reflexivity). destruct Pf as (W & S1 & S2). split.
    + intros X. rewrite G in X. injection X as <- <-. exists f. split; [exact Lc|]. split; [apply read_means; assumption|apply read_means; assumption].
    + intros (g & Lg & Mu & Mr). assert (f = g) by exact (last_unique _ _ _ _ Lc Lg). subst g. apply (read_means f _ _ W S1) in Mu. apply (read_means f _ _ W S2) in Mr. rewrite G. congruence.
  - split; [rewrite G; discriminate|]. intros (g & (l1 & l2 & -> & Ng & _) & _). elim (N g); [apply in_or_app; right; left; reflexivity|exact Ng].
Qed.
Lemma load_fine fs : Forall plainly fs -> forall d, (exists d', load fs d = Ok d') <-> forall f, In f fs -> ~ demands f "utility" /\ ~ demands f "reward".
Proof.
  induction 1 as [|f fs (W & S1 & S2) _ IH]; intros d; cbn [load]; [split; [intros _ f []|eauto]|].
  assert (K : forall n dft, not_starred f n -> (exists v, from_signature f n dft = Ok v) <-> ~ demands f n).
  { intros n dft Ns. assert (Ns' : forall x, ~ In (n, x) (fkwonly f)) by (intros x X; apply Ns; exact (in_map fst _ _ X)). split.
    - intros (v & E) [X|X]; [|elim (Ns' _ X)]. destruct (read_demanded f n dft W X) as (e & R & _). congruence.
    - intros H. destruct (fargs_cases f n) as [(v & X)|[X|X]]; [exists v; apply read_said; assumption|elim H; left; exact X|exists dft; apply read_absent; exact X]. }
  split.
  - intros (d' & H). destruct (from_signature f "utility" (Some 0%Q)) as [u|] eqn:U; [|discriminate]. cbn [rbind] in H. destruct (from_signature f "reward" None) as [r|] eqn:R; [|discriminate]. cbn [rbind] in H.
    intros g [<-|Hg]; [split; [apply (K "utility" (Some 0%Q) S1); eauto|apply (K "reward" None S2); eauto]|]. apply (proj1 (IH (dset d (fname f) (u, r)))); [eauto|exact Hg].
  - intros H. destruct (H f (or_introl eq_refl)) as [Hu Hr]. apply (K "utility" (Some 0%Q) S1) in Hu. apply (K "reward" None S2) in Hr. destruct Hu as (u & ->). destruct Hr as (r & ->). cbn [rbind].
    apply IH. intros g Hg. apply H. right. exact Hg.
Qed.
Theorem loads_iff old fs : Forall plainly fs -> (exists d, set_productions old fs = (d, Ok tt)) <-> forall f, In f fs -> ~ demands f "utility" /\ ~ demands f "reward".
Proof.
  intros F. rewrite <- (load_fine fs F []). unfold set_productions. split.
  - intros (d & H). destruct (load fs []) as [d'|]; [eauto|discriminate].
  - intros (d' & ->). eauto.
Qed.
Theorem failed_load old fs d e : set_productions old fs = (d, Err e) -> d = old.
Proof. unfold set_productions. destruct (load fs []); intros [=]; auto. Qed.
Lemma dmem_key {A} (d : dict A) k : dmem d k = true -> In k (dkeys d).
Proof. unfold dmem, dkeys. destruct (dget d k) as [a|] eqn:E; [|discriminate]. intros _. exact (in_map fst _ _ (dget_In _ _ E)). Qed.
Lemma load_keys fs : forall d d', load fs d = Ok d' -> NoDup (dkeys d ++ map fname fs) -> dkeys d' = dkeys d ++ map fname fs.
Proof.
  induction fs as [|f fs IH]; intros d d' H N; cbn [load map] in *; [injection H as <-; rewrite app_nil_r; reflexivity|].
  destruct (from_signature f "utility" (Some 0%Q)) as [u|]; [|discriminate]. cbn [rbind] in H. destruct (from_signature f "reward" None) as [r|]; [|discriminate]. cbn [rbind] in H.
  assert (E : dkeys (dset d (fname f) (u, r)) = dkeys d ++ [fname f]).
  { rewrite dkeys_dset. destruct (dmem d (fname f)) eqn:M; [|reflexivity]. apply dmem_key in M. apply NoDup_remove_2 in N. elim N. apply in_or_app. left. exact M. }
  rewrite (IH _ _ H); rewrite E, <- app_assoc; [reflexivity|exact N].
Qed.
Theorem loaded_order old fs d : NoDup (map fname fs) -> set_productions old fs = (d, Ok tt) -> dkeys d = map fname fs.
Proof. intros N H. unfold set_productions in H. destruct (load fs []) as [d'|] eqn:L; [|discriminate]. injection H as ->. exact (load_keys _ _ _ L N). Qed.

(** ** Examples *)
Definition sx_one : func := MkFunc "one" [("utility", Some (Some 5%Q)); ("reward", Some (Some 2%Q))] [].
Definition sx_two : func := MkFunc "two" [("x", None); ("reward", Some None); ("y", Some (Some 7%Q))] [].
Definition sx_star : func := MkFunc "star" [] [("utility", Some (Some 5%Q))].
Definition sx_bad : func := MkFunc "bad" [("utility", None); ("reward", Some (Some 2%Q))] [].
Ltac nodup := repeat (constructor; [cbn; intros X; decompose [or] X; try discriminate; try contradiction|]); constructor.
Lemma star_lost : exists f v, written_well f /\ says f "utility" v /\ forall old d r, set_productions old [f] = (d, Ok tt) -> dget d (fname f) = Some (v, r) -> False.
Proof.
  exists sx_star, (Some 5%Q). split; [split; [nodup|exists [], []; split; [reflexivity|split; intros p []]]|]. split; [right; left; reflexivity|].
  intros old d r H G. cbn in H. injection H as <-. cbn in G. discriminate G.
Qed.
Lemma plain_one : plainly sx_one.
Proof.
  split; [|split; intros []]. split; [nodup|]. exists [], (fargs sx_one). split; [reflexivity|]. split; [intros p []|]. intros p [<-|[<-|[]]]; discriminate.
Qed.
Lemma plain_two : plainly sx_two.
Proof.
  split; [|split; intros []]. split; [nodup|]. exists [("x", None)], [("reward", Some None); ("y", Some (Some 7%Q))]. split; [reflexivity|]. split; [intros p [<-|[]]; reflexivity|]. intros p [<-|[<-|[]]]; discriminate.
Qed.
Lemma plain_bad : plainly sx_bad.
Proof.
  split; [|split; intros []]. split; [nodup|]. exists [("utility", None)], [("reward", Some (Some 2%Q))]. split; [reflexivity|]. split; [intros p [<-|[]]; reflexivity|]. intros p [<-|[]]; discriminate.
Qed.
Lemma signatures_used : Forall plainly [sx_one; sx_two] /\ set_productions [("old", (None, None))] [sx_one; sx_two] = ([("one", (Some 5%Q, Some 2%Q)); ("two", (Some 0%Q, None))], Ok tt) /\
  plainly sx_bad /\ demands sx_bad "utility" /\ set_productions [("old", (None, None))] [sx_one; sx_bad] = ([("old", (None, None))], Err EIndex).
Proof. split; [constructor; [apply plain_one|constructor; [apply plain_two|constructor]]|]. split; [reflexivity|]. split; [apply plain_bad|]. split; [left; left; reflexivity|reflexivity]. Qed.
