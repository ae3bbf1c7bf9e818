(** Facts about left-hand sides and conflict resolution. *)
From Coq Require Import Permutation Sorted.
From Verif Require Import Base BaseFacts Chunks DecMem Buffers Productions ProdSpec.
Local Open Scope string_scope.

(** ** Left-hand sides *)

Lemma content_of_buf s name :
  content_of s name = match buf_at s name with Some (_, b) => bdata b | None => [] end.
Proof.
  unfold content_of, buf_at. destruct (dget (snames s) name) as [i|]; [|reflexivity].
  destruct (nth_error (bufs (sw s)) i); reflexivity.
Qed.

Lemma test_cond_iff s name c b b' :
  test_cond s name c b = Ok (Some b') <-> cond_holds s (String "=" name) c b b'.
Proof.
  unfold test_cond. split.
  - intro H. destruct (buf_at s name) as [[i bf]|] eqn:Eb; [|discriminate].
    destruct (bdata bf) as [|d rest] eqn:Ed; [discriminate|].
    destruct (match dget (bpos b) name with Some v => negb (val_eqb (VChunk d) v) | None => false end) eqn:Ev; [discriminate|].
    destruct c as [p| | |]; try discriminate.
    destruct (chunk_le b p d) as [b1 ok] eqn:Ele. destruct ok; [|discriminate]. inversion H; subst b'.
    apply test_holds with (rest := rest); auto.
    + rewrite content_of_buf, Eb. exact Ed.
    + intros v Hv. rewrite Hv in Ev. now apply negb_false_iff in Ev.
  - intro H. inversion H; subst.
    match goal with Hc : content_of _ _ = _ |- _ => rewrite content_of_buf in Hc end.
    destruct (buf_at s name) as [[i bf]|]; [|discriminate].
    match goal with Hc : bdata _ = _ |- _ => rewrite Hc end.
    replace (match dget (bpos b) name with Some v => negb (val_eqb (VChunk d) v) | None => false end) with false.
    + match goal with Hl : chunk_le _ _ _ = _ |- _ => rewrite Hl end. reflexivity.
    + destruct (dget (bpos b) name) as [v|] eqn:E; [|reflexivity]. symmetry. apply negb_false_iff. auto.
Qed.

Lemma query_all_iff s name d :
  query_all s name d = Ok true <->
  (forall a v, In (a, v) d ->
       exists i bf m, dget (snames s) name = Some i /\ nth_error (bufs (sw s)) i = Some bf /\
         ((a = "buffer" /\ ((v = "full" /\ bdata bf <> []) \/ (v = "empty" /\ bdata bf = []))) \/
          (a <> "buffer" /\ nth_error (smods s) i = Some m /\ dget (mattr m) a = Some v))).
Proof.
  induction d as [|[a v] d IH]; [split; [intros _ a v []|reflexivity]|].
  cbn [query_all]. unfold buf_at.
  split.
  - intro H. destruct (dget (snames s) name) as [i|] eqn:Ei; [|discriminate].
    destruct (nth_error (bufs (sw s)) i) as [bf|] eqn:Eb; [|discriminate].
    destruct (if String.eqb a "buffer" then Ok (test_buffer bf v) else test_attr s i a v) as [ok|e] eqn:Et; [|discriminate].
    cbn [rbind] in H. destruct ok; [|discriminate].
    intros a' v' [Hin|Hin].
    + inversion Hin; subst a' v'. destruct (String.eqb a "buffer") eqn:Ea.
      * apply String.eqb_eq in Ea. injection Et as Et'.
        exists i, bf, (MkMod [] (None, 0%Q) (0%Q, 0%Q) false 0%Q). do 2 (split; [auto|]). left. split; [exact Ea|].
        unfold test_buffer in Et'. destruct (bdata bf).
        -- right. apply String.eqb_eq in Et'. auto.
        -- left. apply String.eqb_eq in Et'. split; [auto|discriminate].
      * unfold test_attr in Et. destruct (nth_error (smods s) i) as [m|] eqn:Em; [|discriminate].
        destruct (dget (mattr m) a) as [v'|] eqn:Ev; [|discriminate].
        injection Et as Et'. apply String.eqb_eq in Et'. subst v'.
        exists i, bf, m. do 2 (split; [auto|]). right. split; [|auto]. now apply String.eqb_neq.
    + destruct (proj1 IH H _ _ Hin) as (i' & bf' & m & Hi & Hrest).
      exists i', bf', m. auto.
  - intro H. destruct (H a v (or_introl eq_refl)) as (i & bf & m & Ei & Eb & Hc).
    rewrite Ei, Eb.
    assert (Hok : (if String.eqb a "buffer" then Ok (test_buffer bf v) else test_attr s i a v) = Ok true).
    { destruct Hc as [[Ha Hc]|[Ha [Hm Hg]]].
      - subst a. cbn. unfold test_buffer. destruct Hc as [[Hv Hd]|[Hv Hd]]; subst v.
        + destruct (bdata bf); [contradiction|reflexivity].
        + rewrite Hd. reflexivity.
      - apply String.eqb_neq in Ha. rewrite Ha. unfold test_attr. rewrite Hm, Hg, String.eqb_refl. reflexivity. }
    rewrite Hok. cbn [rbind]. apply IH. intros a' v' Hin. apply H. now right.
Qed.

Lemma query_cond_iff s name c b b' :
  query_cond s name c b = Ok (Some b') <-> cond_holds s (String "?" name) c b b'.
Proof.
  unfold query_cond. split.
  - intro H. destruct c as [|d| |]; try discriminate.
    destruct (query_all s name d) as [ok|] eqn:E; [|discriminate]. cbn [rbind] in H.
    destruct ok; [|discriminate]. inversion H; subst b'. constructor. now apply query_all_iff.
  - intro H. inversion H; subst.
    match goal with Hq : forall a v, In (a, v) ?d -> _ |- _ => apply query_all_iff in Hq; rewrite Hq end. reflexivity.
Qed.

Lemma cond_sign s k c b b' : cond_holds s k c b b' -> exists n, k = String "=" n \/ k = String "?" n.
Proof. intro H. inversion H; subst; eauto. Qed.

Theorem lhs_test_iff s lhs : forall b b', lhs_test s lhs b = Ok (Some b') <-> conds_hold s lhs b b'.
Proof.
  induction lhs as [|[k c] lhs IH]; intros b b'; cbn [lhs_test].
  - split; intro H; [inversion H; constructor|inversion H; reflexivity].
  - split.
    + intro H. destruct k as [|code name]; [discriminate|].
      destruct (Ascii.eqb code "="%char) eqn:E1.
      * apply Ascii.eqb_eq in E1. subst code.
        destruct (test_cond s name c b) as [[b1|]|] eqn:E; cbn [rbind] in H; try discriminate.
        apply conds_cons with b1; [now apply test_cond_iff|now apply IH].
      * destruct (Ascii.eqb code "?"%char) eqn:E2; [|discriminate].
        apply Ascii.eqb_eq in E2. subst code.
        destruct (query_cond s name c b) as [[b1|]|] eqn:E; cbn [rbind] in H; try discriminate.
        apply conds_cons with b1; [now apply query_cond_iff|now apply IH].
    + intro H. inversion H as [|k' c' l' b0 b1 b2 Hc Hl]; subst.
      destruct (cond_sign _ _ _ _ _ Hc) as [n [-> | ->]].
      * change (Ascii.eqb "=" "=")%char with true. cbv iota.
        apply test_cond_iff in Hc. rewrite Hc. cbn [rbind]. now apply IH.
      * change (Ascii.eqb "?" "=")%char with false. change (Ascii.eqb "?" "?")%char with true. cbv iota.
        apply query_cond_iff in Hc. rewrite Hc. cbn [rbind]. now apply IH.
Qed.

Lemma conds_fun s lhs b b1 b2 : conds_hold s lhs b b1 -> conds_hold s lhs b b2 -> b1 = b2.
Proof. intros H1 H2. apply lhs_test_iff in H1, H2. congruence. Qed.

Lemma lhs_test_none s lhs b : lhs_test s lhs b = Ok None -> forall b', ~ conds_hold s lhs b b'.
Proof. intros H b' Hc. apply lhs_test_iff in Hc. congruence. Qed.

(** ** Conflict resolution without noise *)

Definition quiet_noise (s : st) : Prop := qsub (sp s) = false \/ qnoise (sp s) == 0.

Lemma select_quiet O s : quiet_noise s -> svars s = nobind ->
  forall names i used r, select_from O s i names None used = Ok r ->
  (r = used /\ forall n, In n names -> ~ rule_matches s n) \/
  (exists before n after, names = (before ++ n :: after)%list /\ r = Some n /\ rule_matches s n /\
     forall m, In m before -> ~ rule_matches s m).
Proof.
  intros Hq Hv. induction names as [|n names IH]; intros i used r H; cbn [select_from] in H.
  - left. inversion H. split; [reflexivity|intros n []].
  - destruct (dget (srules s) n) as [ru|] eqn:Er; [|discriminate].
    assert (Hn : exists q, (if qsub (sp s) then if Qle_bool 0 (qnoise (sp s)) then Ok (if Qeq_bool (qnoise (sp s)) 0 then 0%Q else onoise O s i) else Err EAssert else Ok 0%Q) = Ok q).
    { destruct Hq as [Hq|Hq]; [rewrite Hq; eauto|]. destruct (qsub (sp s)); [|eauto].
      assert (Hle : Qle_bool 0 (qnoise (sp s)) = true) by (apply Qle_bool_iff; rewrite Hq; apply Qle_refl).
      rewrite Hle. eauto. }
    destruct Hn as [q Hn]. rewrite Hn in H. cbn [rbind] in H. cbv iota in H.
    destruct (lhs_test s (rlhs ru) (svars s)) as [[b|]|] eqn:Et; cbn [rbind] in H; [| |discriminate].
    + assert (Hb : negb (qsub (sp s)) || Qeq_bool (qnoise (sp s)) 0 = true).
      { destruct Hq as [Hq|Hq]; [rewrite Hq; reflexivity|]. apply orb_true_iff. right. now apply Qeq_bool_iff. }
      rewrite Hb in H. inversion H. right. exists [], n, names. split; [reflexivity|].
      split; [reflexivity|]. split; [|intros m []].
      exists ru, b. split; [exact Er|]. rewrite Hv in Et. now apply lhs_test_iff.
    + assert (Hno : ~ rule_matches s n).
      { intros (ru' & b & Hr & Hc). rewrite Er in Hr. inversion Hr; subst ru'. rewrite Hv in Et.
        exact (lhs_test_none _ _ _ Et _ Hc). }
      destruct (IH _ _ _ H) as [[Hr Hall]|(be & m & af & E & Hr & Hm & Hall)].
      * left. split; [exact Hr|]. intros m [<-|Hm]; auto.
      * right. exists (n :: be), m, af. subst names. split; [reflexivity|]. split; [exact Hr|]. split; [exact Hm|].
        intros k [<-|Hk]; auto.
Qed.

(** ** Conflict resolution with noise *)

(** Utility plus noise of the rule number [i]. *)
Definition noisy (O : oracle) (s : st) (i : nat) (n : string) : Q := (util s n + onoise O s i)%Q.

Lemma select_noisy O s : qsub (sp s) = true -> ~ qnoise (sp s) == 0 -> svars s = nobind ->
  forall names i maxu used r, select_from O s i names maxu used = Ok r ->
  (forall q, maxu = Some q -> used <> None) ->
  (* nothing better was found *)
  (r = used /\ (forall j n, nth_error names j = Some n -> rule_matches s n ->
                 exists q, maxu = Some q /\ noisy O s (i + j) n < q)) \/
  (exists j n, nth_error names j = Some n /\ r = Some n /\ rule_matches s n /\
     (forall q, maxu = Some q -> q <= noisy O s (i + j) n) /\
     forall k m, nth_error names k = Some m -> rule_matches s m ->
       noisy O s (i + k) m <= noisy O s (i + j) n).
Proof.
  intros Hs Hz Hv. induction names as [|n names IH]; intros i maxu used r H Hu; cbn [select_from] in H.
  - left. inversion H. split; [reflexivity|]. intros [|j] n Hn; discriminate.
  - destruct (dget (srules s) n) as [ru|] eqn:Er; [|discriminate].
    rewrite Hs in H. destruct (Qle_bool 0 (qnoise (sp s))) eqn:Ele; [|discriminate].
    assert (Hzb : Qeq_bool (qnoise (sp s)) 0 = false).
    { destruct (Qeq_bool (qnoise (sp s)) 0) eqn:E; [|reflexivity]. apply Qeq_bool_iff in E. contradiction. }
    rewrite Hzb in H. cbn [rbind] in H. cbv zeta in H.
    assert (Hnz : noisy O s i n = (rutil ru + onoise O s i)%Q) by (unfold noisy, util; now rewrite Er).
    rewrite <- Hnz in H.
    assert (Hshift : forall j, (i + S j = S i + j)%nat) by (intro; lia).
    assert (H0 : (i + 0 = i)%nat) by lia.
    destruct (match maxu with None => true | Some m => Qle_bool m (noisy O s i n) end) eqn:Em.
    + destruct (lhs_test s (rlhs ru) (svars s)) as [[b|]|] eqn:Et; cbn [rbind] in H; [| |discriminate].
      * cbn [negb orb] in H.
        assert (Hm : rule_matches s n).
        { exists ru, b. split; [exact Er|]. rewrite Hv in Et. now apply lhs_test_iff. }
        assert (Hge : forall q, maxu = Some q -> q <= noisy O s i n).
        { intros q Hq. subst maxu. now apply Qle_bool_iff in Em. }
        destruct (IH _ _ _ _ H) as [[Hr Hall]|(j & m & Hj & Hr & Hmm & Hmx & Hall)].
        -- discriminate.
        -- right. exists 0%nat, n. rewrite H0. split; [reflexivity|]. split; [exact Hr|]. split; [exact Hm|].
           split; [exact Hge|].
           intros [|k] m Hk Hkm; cbn [nth_error] in Hk.
           ++ inversion Hk; subst m. rewrite H0. apply Qle_refl.
           ++ rewrite Hshift. destruct (Hall _ _ Hk Hkm) as [q [Hq Hlt]]. inversion Hq; subst q. now apply Qlt_le_weak.
        -- right. exists (S j), m. rewrite Hshift. split; [exact Hj|]. split; [exact Hr|]. split; [exact Hmm|].
           assert (Hnj : noisy O s i n <= noisy O s (S i + j) m) by (apply Hmx; reflexivity).
           split; [intros q Hq; eapply Qle_trans; [apply Hge; exact Hq|exact Hnj]|].
           intros [|k] m' Hk Hkm; cbn [nth_error] in Hk.
           ++ inversion Hk; subst m'. rewrite H0. exact Hnj.
           ++ rewrite Hshift. now apply Hall.
      * assert (Hno : ~ rule_matches s n).
        { intros (ru' & b & Hr & Hc). rewrite Er in Hr. inversion Hr; subst ru'. rewrite Hv in Et.
          exact (lhs_test_none _ _ _ Et _ Hc). }
        destruct (IH _ _ _ _ H Hu) as [[Hr Hall]|(j & m & Hj & Hr & Hmm & Hmx & Hall)].
        -- left. split; [exact Hr|]. intros [|j] m Hj Hm; cbn [nth_error] in Hj.
           ++ inversion Hj; subst m. contradiction.
           ++ rewrite Hshift. now apply Hall.
        -- right. exists (S j), m. rewrite Hshift. repeat (split; [assumption|]).
           intros [|k] m' Hk Hkm; cbn [nth_error] in Hk.
           ++ inversion Hk; subst m'. contradiction.
           ++ rewrite Hshift. now apply Hall.
    + destruct maxu as [q|]; [|discriminate].
      assert (Hlt : noisy O s i n < q).
      { apply Qnot_le_lt. intro Hc. apply Qle_bool_iff in Hc. congruence. }
      destruct (IH _ _ _ _ H Hu) as [[Hr Hall]|(j & m & Hj & Hr & Hmm & Hmx & Hall)].
      -- left. split; [exact Hr|]. intros [|j] m Hj Hm; cbn [nth_error] in Hj.
         ++ inversion Hj; subst m. rewrite H0. eauto.
         ++ rewrite Hshift. now apply Hall.
      -- right. exists (S j), m. rewrite Hshift. repeat (split; [assumption|]).
         intros [|k] m' Hk Hkm; cbn [nth_error] in Hk.
         ++ inversion Hk; subst m'. rewrite H0. apply Qlt_le_weak. eapply Qlt_le_trans; [exact Hlt|]. now apply Hmx.
         ++ rewrite Hshift. now apply Hall.
Qed.

(** ** The order in which rules are tried *)

(** No rule is followed by one of higher utility. *)
Definition best_first (u : string -> Q) (l : list string) : Prop :=
  forall before n after m, l = (before ++ n :: after)%list -> In m after -> u m <= u n.

Lemma sorted_after {A} (leu : A -> A -> bool) l before x after :
  sortedb leu l -> l = (before ++ x :: after)%list -> Forall (fun y => leu x y = true) after.
Proof.
  revert l. induction before as [|b before IH]; intros l Hs ->; cbn in Hs; destruct Hs as [H1 H2]; [exact H1|].
  now apply IH in H2.
Qed.

Lemma initial_order_perm rules : Permutation (initial_order rules) (dkeys rules).
Proof. unfold initial_order, dkeys. apply Permutation_map. apply isort_perm. Qed.

Lemma initial_order_sorted rules :
  NoDup (dkeys rules) ->
  best_first (fun r => match dget rules r with Some ru => rutil ru | None => 0 end) (initial_order rules).
Proof.
  intros nd before n after m E Hm.
  unfold initial_order in E.
  set (leu := fun p q : string * rule => Qle_bool (rutil (snd q)) (rutil (snd p))) in *.
  assert (Hs : sortedb leu (isort leu rules)).
  { apply isort_sorted; unfold leu; intros.
    - destruct (Qlt_le_dec (rutil (snd a)) (rutil (snd b))) as [H|H].
      + right. apply Qle_bool_iff. now apply Qlt_le_weak.
      + left. now apply Qle_bool_iff.
    - apply Qle_bool_iff in H, H0. apply Qle_bool_iff. eapply Qle_trans; eassumption. }
  assert (Hp : Permutation (isort leu rules) rules) by apply isort_perm.
  apply map_eq_app in E. destruct E as (l1 & l2 & El & E1 & E2).
  destruct l2 as [|[n' ru] l2]; [discriminate|]. cbn in E2. injection E2 as En Ea. subst n'.
  subst after. apply in_map_iff in Hm. destruct Hm as [[m' ru'] [Em Hm]]. cbn in Em. subst m'.
  assert (Hle : rutil ru' <= rutil ru).
  { pose proof (sorted_after leu _ _ _ _ Hs El) as Hf. rewrite Forall_forall in Hf.
    specialize (Hf _ Hm). unfold leu in Hf. now apply Qle_bool_iff in Hf. }
  assert (Hg : forall k r, In (k, r) (isort leu rules) -> dget rules k = Some r).
  { intros k r Hk. apply (Permutation_in _ Hp) in Hk. now apply (dget_NoDup _ _ _ nd). }
  rewrite (Hg n ru), (Hg m ru'); [exact Hle| |].
  - rewrite El. apply in_or_app. right. now right.
  - rewrite El. apply in_or_app. right. now left.
Qed.

Lemma first_match_best s r before after :
  best_first (util s) (sorder s) -> sorder s = (before ++ r :: after)%list ->
  (forall m, In m before -> ~ rule_matches s m) ->
  forall m, In m (sorder s) -> rule_matches s m -> util s m <= util s r.
Proof.
  intros Hb E Hn m Hin Hm. rewrite E in Hin. apply in_app_or in Hin.
  destruct Hin as [Hin|[<-|Hin]]; [exfalso; eapply Hn; eauto|apply Qle_refl|eapply Hb; eauto].
Qed.
