(** Proofs about the model of chunks. *)
From Verif Require Import Chunks ChunkSpec.
From Verif Require Export BaseFacts.
From Coq Require Import Permutation.
Local Open Scope string_scope.
#[local] Set Implicit Arguments.

(** ** hval equality is Leibniz equality *)

Section hval_ind.
  Variable P : hval -> Prop.
  Hypothesis Hnone : P HNone.
  Hypothesis Hstr : forall s, P (HStr s).
  Hypothesis Hchunk : forall l, Forall (fun e : entry => P (snd (snd e))) l -> P (HChunk l).
  Fixpoint hval_ind' (v : hval) : P v :=
    match v with
    | HNone => Hnone
    | HStr s => Hstr s
    | HChunk l => Hchunk
        ((fix go (l : list entry) : Forall (fun e : entry => P (snd (snd e))) l :=
           match l with
           | [] => Forall_nil _
           | e :: l' => Forall_cons e (hval_ind' (snd (snd e))) (go l')
           end) l)
    end.
End hval_ind.

Lemma hkind_eqb_eq a b : hkind_eqb a b = true <-> a = b.
Proof. destruct a, b; simpl; split; congruence. Qed.

Lemma hval_eqb_eq : forall a b, hval_eqb a b = true <-> a = b.
Proof.
  induction a as [|s|l IH] using hval_ind'; intros b.
  - destruct b; simpl; split; congruence.
  - destruct b; simpl; try (split; congruence).
    rewrite String.eqb_eq. split; congruence.
  - destruct b as [| |m]; simpl; try (split; congruence).
    enough (H : forall m, (fix go (l m : list entry) {struct l} : bool :=
         match l, m with
         | [], [] => true
         | (s, (k, x)) :: l', (t, (k', y)) :: m' =>
             String.eqb s t && hkind_eqb k k' && hval_eqb x y && go l' m'
         | _, _ => false
         end) l m = true <-> l = m).
    { rewrite H. split; congruence. }
    clear m. induction IH as [|[s [k x]] l Hx _ IHl]; intros [|[t [k' y]] m]; try (split; congruence).
    rewrite !andb_true_iff, String.eqb_eq, hkind_eqb_eq. simpl in Hx. rewrite Hx, IHl.
    split; [intros [[[-> ->] ->] ->]; reflexivity | intros [= -> -> -> ->]; auto].
Qed.

Lemma hval_eqb_refl a : hval_eqb a a = true.
Proof. apply hval_eqb_eq; reflexivity. Qed.

Lemma hval_eqb_sym a b : hval_eqb a b = hval_eqb b a.
Proof.
  destruct (hval_eqb a b) eqn:E; symmetry.
  - apply hval_eqb_eq in E. subst. apply hval_eqb_refl.
  - destruct (hval_eqb b a) eqn:E'; [|reflexivity].
    apply hval_eqb_eq in E'. subst. rewrite hval_eqb_refl in E. discriminate.
Qed.

Lemma hval_eqb_neq a b : hval_eqb a b = false <-> a <> b.
Proof. rewrite <- not_true_iff_false, hval_eqb_eq. reflexivity. Qed.

(** ** Induction on values *)

Section value_ind.
  Variable P : value -> Prop.
  Hypothesis Hnone : P VNone.
  Hypothesis Hempty : P VEmpty.
  Hypothesis Hstr : forall s, P (VStr s).
  Hypothesis Hchunk : forall c,
    (forall n w, In (n, Some w) (cslots c) ->
       P (vvals w) /\ (forall v, In v (vnegvals w) -> P v)) -> P (VChunk c).

  Definition slot_P (s : slotval) : Prop :=
    match s with None => True | Some w => P (vvals w) /\ Forall P (vnegvals w) end.

  Fixpoint value_ind' (v : value) : P v.
  Proof.
    destruct v as [| |s|c].
    - exact Hnone.
    - exact Hempty.
    - exact (Hstr s).
    - apply Hchunk. destruct c as [ty slots]. simpl.
      enough (H : Forall (fun p : string * slotval => slot_P (snd p)) slots).
      { intros n w Hin. rewrite Forall_forall in H. specialize (H _ Hin). simpl in H.
        destruct H as [H1 H2]. split; [exact H1|]. rewrite Forall_forall in H2. exact H2. }
      induction slots as [|[n [w|]] slots IH]; constructor; simpl; auto.
      split; [apply value_ind'|].
      destruct w as [v x nv nx]; simpl.
      induction nv; constructor; auto.
  Qed.
End value_ind.

(** ** Emptiness *)

Lemma emptyish_spec v : emptyish v = true <-> is_empty v.
Proof.
  split.
  - destruct v as [| |s|c]; simpl; try congruence; intros H; try constructor.
    apply String.eqb_eq in H. subst. constructor.
  - destruct 1; reflexivity.
Qed.

Lemma emptyish_false v : emptyish v = false <-> ~ is_empty v.
Proof. rewrite <- emptyish_spec, not_true_iff_false. reflexivity. Qed.

Lemma is_empty_dec v : {is_empty v} + {~ is_empty v}.
Proof.
  destruct (emptyish v) eqn:E; [left|right]; [apply emptyish_spec|apply emptyish_false]; exact E.
Qed.

(** ** Slot order *)

Lemma slot_lt_irrefl a : ~ slot_lt a a.
Proof. unfold slot_lt. rewrite compare_refl. discriminate. Qed.

Lemma slot_lt_trans a b c : slot_lt a b -> slot_lt b c -> slot_lt a c.
Proof. apply compare_lt_trans. Qed.

Lemma slot_trichotomy a b : slot_lt a b \/ a = b \/ slot_lt b a.
Proof.
  unfold slot_lt. destruct (String.compare (a ++ "_") (b ++ "_")) eqn:E; auto.
  - apply String.compare_eq_iff in E. apply append_inj_r in E. auto.
  - right; right. rewrite String.compare_antisym, E. reflexivity.
Qed.

Lemma slot_leb_lt a b : slot_leb a b = true <-> slot_lt a b \/ a = b.
Proof.
  unfold slot_leb, String.leb, slot_lt.
  destruct (String.compare (a ++ "_") (b ++ "_")) eqn:E.
  - apply String.compare_eq_iff in E. apply append_inj_r in E. tauto.
  - tauto.
  - split; [discriminate|]. intros [H|H]; [discriminate|]. subst. rewrite compare_refl in E.
    discriminate.
Qed.

Lemma slot_leb_total a b : slot_leb a b = true \/ slot_leb b a = true.
Proof. apply String.leb_total. Qed.

Lemma slot_leb_trans a b c : slot_leb a b = true -> slot_leb b c = true -> slot_leb a c = true.
Proof.
  rewrite !slot_leb_lt. intros [H|<-] [H'|<-]; auto. left. apply slot_lt_trans with b; auto.
Qed.

Lemma slot_leb_antisym a b : slot_leb a b = true -> slot_leb b a = true -> a = b.
Proof.
  rewrite !slot_leb_lt. intros [H|H] [H'|H']; auto.
  exfalso. apply (slot_lt_irrefl (a:=a)). apply slot_lt_trans with b; auto.
Qed.

Lemma increasing_NoDup l : increasing l -> NoDup l.
Proof.
  induction l as [|a l IH]; simpl; [constructor|].
  intros [Ha Hl]. constructor; [|auto]. intros Hin.
  rewrite Forall_forall in Ha. apply (slot_lt_irrefl (a:=a)). auto.
Qed.

Lemma sorted_NoDup_increasing l : sortedb slot_leb l -> NoDup l -> increasing l.
Proof.
  induction l as [|a l IH]; simpl; [auto|].
  intros [Ha Hl] Hnd. inversion Hnd; subst. split; [|auto].
  rewrite Forall_forall in *. intros x Hx. specialize (Ha x Hx). apply slot_leb_lt in Ha.
  destruct Ha as [Ha|<-]; [exact Ha|contradiction].
Qed.

(** ** Entries of a slot; the signature slot by slot *)

Lemma hdedup_from_In seen l x : In x (hdedup_from seen l) <-> In x l /\ ~ In x seen.
Proof.
  revert seen. induction l as [|a l IH]; intros seen; simpl; [tauto|].
  destruct (existsb (hval_eqb a) seen) eqn:E.
  - apply existsb_exists in E. destruct E as (y & Hy & E). apply hval_eqb_eq in E. subst y.
    rewrite IH. split; [tauto|]. intros [[->|H] H']; tauto.
  - assert (Hn : ~ In a seen).
    { intros Hin. assert (existsb (hval_eqb a) seen = true); [|congruence].
      apply existsb_exists. exists a. split; [exact Hin|apply hval_eqb_refl]. }
    simpl. rewrite IH. simpl. split.
    + intros [->|[H H']]; [tauto|]. split; [tauto|]. intros Hs. apply H'. auto.
    + intros [[->|H] H']; [tauto|]. destruct (hval_eqb a x) eqn:Eax.
      * apply hval_eqb_eq in Eax. auto.
      * right. split; [exact H|]. intros [->|?]; [|tauto]. rewrite hval_eqb_refl in Eax. discriminate.
Qed.

Lemma hdedup_In l x : In x (hdedup l) <-> In x l.
Proof. unfold hdedup. rewrite hdedup_from_In. simpl. tauto. Qed.

Lemma kept_false_entries h b n w :
  kept_nonempty (Some w) = false -> slot_entries h b n w = [].
Proof.
  unfold kept_nonempty, slot_entries. intros H.
  apply orb_false_iff in H. destruct H as [H H4]. apply orb_false_iff in H. destruct H as [H H3].
  apply orb_false_iff in H. destruct H as [H1 H2]. apply negb_false_iff in H1. rewrite H1.
  assert (Hc : var_chars (vvar w) = []).
  { unfold var_chars. destruct (vvar w) as [[|c s]|]; simpl in *; congruence. }
  rewrite Hc. destruct (vnegvars w); [|discriminate]. destruct (vnegvals w); [|discriminate].
  reflexivity.
Qed.

Section Blocks.
  Variable h : value -> hval.
  Variable b : string -> option hval.

  Definition blk_with (slots : list (string * slotval)) (n : string) : list entry :=
    match dget slots n with
    | Some (Some w) => slot_entries h b n w
    | _ => []
    end.

  Definition head_entries (n : string) (s : slotval) : list entry :=
    match s with Some w => slot_entries h b n w | None => [] end.

  Lemma sig_with_cons n s slots :
    sig_with h b ((n, s) :: slots) = (head_entries n s ++ sig_with h b slots)%list.
  Proof.
    unfold sig_with. simpl. f_equal. destruct s as [w|]; [|reflexivity].
    simpl. destruct (kept_nonempty (Some w)) eqn:E; simpl in E; rewrite ?E; [reflexivity|].
    symmetry. apply kept_false_entries. exact E.
  Qed.

  Lemma slot_entries_name n w e : In e (slot_entries h b n w) -> fst e = n.
  Proof.
    unfold slot_entries, unbound. rewrite !in_app_iff, !in_flat_map, !in_map_iff.
    intros [(x & _ & H)|[(x & _ & H)|[(x & <- & _)|(x & <- & _)]]]; try reflexivity.
    - destruct (b x); simpl in H; [tauto|]. destruct H as [<-|[]]. reflexivity.
    - destruct (b x); simpl in H; [tauto|]. destruct H as [<-|[]]. reflexivity.
  Qed.

  Lemma filter_all_name n l :
    (forall e : entry, In e l -> fst e = n) -> filter (fun e : entry => String.eqb (fst e) n) l = l.
  Proof.
    induction l as [|a l IH]; simpl; [reflexivity|]. intros H.
    rewrite (H a) by auto. rewrite String.eqb_refl. f_equal. apply IH. intros e He. apply H. auto.
  Qed.

  Lemma filter_other_name n m l :
    n <> m -> (forall e : entry, In e l -> fst e = m) ->
    filter (fun e : entry => String.eqb (fst e) n) l = [].
  Proof.
    intros Hne. induction l as [|a l IH]; simpl; [reflexivity|]. intros H.
    rewrite (H a) by auto. destruct (String.eqb_spec m n); [congruence|].
    apply IH. intros e He. apply H. auto.
  Qed.

  Lemma sig_filter slots n :
    NoDup (dkeys slots) ->
    filter (fun e : entry => String.eqb (fst e) n) (sig_with h b slots) = blk_with slots n.
  Proof.
    induction slots as [|[m s] slots IH]; intros Hnd; [reflexivity|].
    inversion Hnd as [|x l Hnin Hnd' E]; subst.
    rewrite sig_with_cons, filter_app, IH by assumption.
    unfold blk_with. simpl. destruct (String.eqb_spec m n) as [->|Hne].
    - assert (E : dget slots n = None) by (apply dget_None; exact Hnin).
      rewrite E, app_nil_r. destruct s as [w|]; [|reflexivity]. simpl.
      apply filter_all_name. intros e He. apply slot_entries_name in He. exact He.
    - rewrite (filter_other_name (n:=n) (m:=m)); [reflexivity|congruence|].
      destruct s as [w|]; simpl; [|tauto]. intros e He. apply slot_entries_name in He. exact He.
  Qed.
End Blocks.

(** Equality of signatures can be checked slot by slot, for any two ways to hash. *)
Lemma sig_eq_blocks h b h' b' l m :
  increasing (dkeys l) -> increasing (dkeys m) ->
  (forall n, blk_with h b l n = blk_with h' b' m n) ->
  sig_with h b l = sig_with h' b' m.
Proof.
  remember (List.length l + List.length m)%nat as k eqn:Ek.
  assert (Hk : (List.length l + List.length m <= k)%nat) by lia. clear Ek.
  revert l m Hk. induction k as [|k IH]; intros l m Hk Hl Hm Hb.
  - destruct l, m; simpl in Hk; try lia. reflexivity.
  - destruct l as [|[n s] l], m as [|[n' s'] m]; [reflexivity| | |].
    + rewrite sig_with_cons. simpl in Hm. destruct Hm as [Hm1 Hm2].
      assert (E : head_entries h' b' n' s' = []).
      { specialize (Hb n'). unfold blk_with in Hb. simpl in Hb. rewrite String.eqb_refl in Hb.
        destruct s'; simpl; auto. }
      rewrite E. cbn [app]. apply IH; [simpl in *; lia|exact Hl|exact Hm2|].
      intros x. specialize (Hb x). unfold blk_with in *. simpl in Hb.
      destruct (String.eqb_spec n' x) as [->|Hne]; [|exact Hb].
      replace (dget m x) with (@None slotval); [reflexivity|]. symmetry. apply dget_None.
      intros Hin. rewrite Forall_forall in Hm1. apply (slot_lt_irrefl (a:=x)). auto.
    + rewrite sig_with_cons. simpl in Hl. destruct Hl as [Hl1 Hl2].
      assert (E : head_entries h b n s = []).
      { specialize (Hb n). unfold blk_with in Hb. simpl in Hb. rewrite String.eqb_refl in Hb.
        destruct s; simpl; auto. }
      rewrite E. cbn [app]. apply IH; [simpl in *; lia|exact Hl2|exact Hm|].
      intros x. specialize (Hb x). unfold blk_with in *. simpl in Hb.
      destruct (String.eqb_spec n x) as [->|Hne]; [|exact Hb].
      replace (dget l x) with (@None slotval); [reflexivity|]. symmetry. apply dget_None.
      intros Hin. rewrite Forall_forall in Hl1. apply (slot_lt_irrefl (a:=x)). auto.
    + simpl in Hl, Hm. destruct Hl as [Hl1 Hl2], Hm as [Hm1 Hm2]. rewrite Forall_forall in Hl1, Hm1.
      destruct (slot_trichotomy n n') as [Hlt|[<-|Hlt]].
      * rewrite sig_with_cons.
        assert (En : dget ((n', s') :: m) n = None).
        { apply dget_None. simpl. intros [<-|Hin]; [apply (slot_lt_irrefl Hlt)|].
          apply (slot_lt_irrefl (a:=n)). apply slot_lt_trans with n'; auto. }
        assert (E : head_entries h b n s = []).
        { specialize (Hb n). unfold blk_with in Hb. rewrite En in Hb. simpl in Hb.
          rewrite String.eqb_refl in Hb. destruct s; simpl; auto. }
        rewrite E. cbn [app]. apply IH; [simpl in *; lia|exact Hl2|simpl; split; [apply Forall_forall; exact Hm1|exact Hm2]|].
        intros x. specialize (Hb x). unfold blk_with in *. simpl dget in Hb at 1.
        destruct (String.eqb_spec n x) as [->|Hne]; [|exact Hb].
        rewrite En. replace (dget l x) with (@None slotval); [reflexivity|]. symmetry.
        apply dget_None. intros Hin. apply (slot_lt_irrefl (a:=x)). auto.
      * rewrite !sig_with_cons. f_equal.
        { specialize (Hb n). unfold blk_with in Hb. simpl in Hb. rewrite String.eqb_refl in Hb.
          destruct s, s'; simpl; auto. }
        apply IH; [simpl in *; lia|exact Hl2|exact Hm2|].
        intros x. specialize (Hb x). unfold blk_with in *. simpl in Hb.
        destruct (String.eqb_spec n x) as [->|Hne]; [|exact Hb].
        replace (dget l x) with (@None slotval);
          [replace (dget m x) with (@None slotval); [reflexivity|]|]; symmetry;
          apply dget_None; intros Hin; apply (slot_lt_irrefl (a:=x)); auto.
      * rewrite (sig_with_cons h' b').
        assert (En : dget ((n, s) :: l) n' = None).
        { apply dget_None. simpl. intros [<-|Hin]; [apply (slot_lt_irrefl Hlt)|].
          apply (slot_lt_irrefl (a:=n')). apply slot_lt_trans with n; auto. }
        assert (E : head_entries h' b' n' s' = []).
        { specialize (Hb n'). unfold blk_with in Hb. rewrite En in Hb. simpl in Hb.
          rewrite String.eqb_refl in Hb. destruct s'; simpl; auto. }
        rewrite E. cbn [app]. apply IH; [simpl in *; lia|simpl; split; [apply Forall_forall; exact Hl1|exact Hl2]|exact Hm2|].
        intros x. specialize (Hb x). unfold blk_with in *. simpl dget in Hb at 2.
        destruct (String.eqb_spec n' x) as [->|Hne]; [|exact Hb].
        rewrite En. replace (dget m x) with (@None slotval); [reflexivity|]. symmetry.
        apply dget_None. intros Hin. apply (slot_lt_irrefl (a:=x)). auto.
Qed.

Definition blk (b : bindings) (c : chunk) (n : string) : list entry :=
  blk_with hash_value (bhash b) (cslots c) n.

Lemma sig_eq_iff b c b' d :
  increasing (dkeys (cslots c)) -> increasing (dkeys (cslots d)) ->
  sig b c = sig b' d <-> forall n, blk b c n = blk b' d n.
Proof.
  intros Hc Hd. split.
  - intros E n. unfold blk, sig in *.
    rewrite <- sig_filter by (apply increasing_NoDup; exact Hc).
    rewrite <- (sig_filter hash_value (bhash b')) by (apply increasing_NoDup; exact Hd).
    rewrite E. reflexivity.
  - apply sig_eq_blocks; assumption.
Qed.

Lemma hash_chunk c : hash_value (VChunk c) = HChunk (sig nobind c).
Proof. reflexivity. Qed.

Lemma chunk_eqb_sig b c d : chunk_eqb b c d = true <-> sig b c = sig nobind d.
Proof. unfold chunk_eqb. rewrite hval_eqb_eq. split; congruence. Qed.

(** ** Facts: equality is extensional (C01) *)

Lemma wf_chunk_inv c : wf_chunk c ->
  increasing (dkeys (cslots c)) /\
  forall n w, In (n, Some w) (cslots c) ->
    wf_value (vvals w) /\ (forall v, In v (vnegvals w) -> wf_value v).
Proof. intros H. inversion H; auto. Qed.

Lemma fact_inv c : fact c ->
  forall n w, In (n, Some w) (cslots c) ->
    vvar w = None /\ vnegvals w = [] /\ vnegvars w = [] /\ const_value (vvals w).
Proof. intros H. inversion H; auto. Qed.

Lemma wf_value_chunk c : wf_value (VChunk c) -> wf_chunk c.
Proof. intros H; inversion H; auto. Qed.

Lemma const_value_chunk c : const_value (VChunk c) -> fact c.
Proof. intros H; inversion H; auto. Qed.

Lemma wf_NoDup c : wf_chunk c -> NoDup (dkeys (cslots c)).
Proof. intros H. apply increasing_NoDup. apply wf_chunk_inv. exact H. Qed.

(** The entries of a slot of a fact. *)
Lemma blk_fact b c n : fact c ->
  blk b c n = match dget (cslots c) n with
              | Some (Some w) => if emptyish (vvals w) then [] else [(n, (KValues, hash_value (vvals w)))]
              | _ => []
              end.
Proof.
  intros Hf. unfold blk, blk_with. destruct (dget (cslots c) n) as [[w|]|] eqn:E; try reflexivity.
  apply dget_In in E. destruct (fact_inv Hf _ _ E) as (E1 & E2 & E3 & _).
  unfold slot_entries. rewrite E1, E2, E3. simpl.
  destruct (emptyish (vvals w)); reflexivity.
Qed.

Lemma blk_fact_holds b c n v : fact c -> holds c n v -> blk b c n = [(n, (KValues, hash_value v))].
Proof.
  intros Hf (w & E & <- & Hne). rewrite (blk_fact _ _ Hf), E.
  apply emptyish_false in Hne. rewrite Hne. reflexivity.
Qed.

Lemma blk_fact_cases b c n : fact c ->
  (exists v, holds c n v /\ blk b c n = [(n, (KValues, hash_value v))]) \/
  ((forall v, ~ holds c n v) /\ blk b c n = []).
Proof.
  intros Hf. rewrite (blk_fact _ _ Hf). destruct (dget (cslots c) n) as [[w|]|] eqn:E.
  - destruct (emptyish (vvals w)) eqn:Ee.
    + right. split; [|reflexivity]. intros v (w' & E' & <- & Hne). rewrite E in E'.
      injection E' as <-. apply emptyish_false in Hne. congruence.
    + left. exists (vvals w). split; [|reflexivity]. exists w. split; [exact E|].
      split; [reflexivity|]. apply emptyish_false. exact Ee.
  - right. split; [|reflexivity]. intros v (w' & E' & _). congruence.
  - right. split; [|reflexivity]. intros v (w' & E' & _). congruence.
Qed.

Lemma holds_In c n v : holds c n v -> exists w, In (n, Some w) (cslots c) /\ vvals w = v.
Proof. intros (w & E & H & _). exists w. split; [apply dget_In; exact E|exact H]. Qed.

Lemma holds_nonempty c n v : holds c n v -> ~ is_empty v.
Proof. intros (w & _ & _ & H). exact H. Qed.

Lemma same_fact_inv c d : same_fact c d ->
  (forall n v, holds c n v -> exists w, holds d n w /\ same_value v w) /\
  (forall n w, holds d n w -> exists v, holds c n v /\ same_value v w).
Proof. intros H; inversion H; auto. Qed.

Lemma hash_same_value : forall v, const_value v -> wf_value v -> forall w, const_value w -> wf_value w ->
  ~ is_empty v -> ~ is_empty w -> (hash_value v = hash_value w <-> same_value v w).
Proof.
  induction v as [| |s|c IH] using value_ind'; intros Cv Wv w Cw Ww Hv Hw.
  - exfalso; apply Hv; constructor.
  - exfalso; apply Hv; constructor.
  - destruct w as [| |t|d]; try (exfalso; apply Hw; constructor).
    + simpl. split; [intros [= <-]; constructor|intros H; inversion H; reflexivity].
    + simpl. split; [discriminate|intros H; inversion H].
  - destruct w as [| |t|d]; try (exfalso; apply Hw; constructor).
    { simpl. split; [discriminate|intros H; inversion H]. }
    apply const_value_chunk in Cv, Cw. apply wf_value_chunk in Wv, Ww.
    destruct (wf_chunk_inv Wv) as [Ic Wc]. destruct (wf_chunk_inv Ww) as [Id Wd].
    assert (IH' : forall n v w, holds c n v -> holds d n w ->
              (hash_value v = hash_value w <-> same_value v w)).
    { intros n v w Hc Hd. destruct (holds_In Hc) as (wc & Hinc & <-).
      destruct (holds_In Hd) as (wd & Hind & <-).
      apply (proj1 (IH n wc Hinc)).
      - apply (fact_inv Cv n wc Hinc).
      - apply (proj1 (Wc n wc Hinc)).
      - apply (fact_inv Cw n wd Hind).
      - apply (proj1 (Wd n wd Hind)).
      - apply (holds_nonempty Hc).
      - apply (holds_nonempty Hd). }
    rewrite !hash_chunk. transitivity (sig nobind c = sig nobind d); [split; congruence|].
    rewrite (sig_eq_iff nobind c nobind d Ic Id). split.
    + intros Hb. constructor. constructor.
      * intros n v Hc. specialize (Hb n). rewrite (blk_fact_holds _ Cv Hc) in Hb.
        destruct (blk_fact_cases nobind n Cw) as [(u & Hu & E)|[_ E]]; rewrite E in Hb; [|discriminate].
        injection Hb as Eh. exists u. split; [exact Hu|]. apply (IH' n); assumption.
      * intros n u Hd. specialize (Hb n). rewrite (blk_fact_holds _ Cw Hd) in Hb.
        destruct (blk_fact_cases nobind n Cv) as [(v & Hv' & E)|[_ E]]; rewrite E in Hb; [|discriminate].
        injection Hb as Eh. exists v. split; [exact Hv'|]. apply (IH' n); assumption.
    + intros HS. inversion HS as [|? ? HF]; subst. apply same_fact_inv in HF. destruct HF as [H1 H2].
      intros n. destruct (blk_fact_cases nobind n Cv) as [(v & Hc & E)|[Hn E]]; rewrite E.
      * destruct (H1 n v Hc) as (u & Hd & Hs). rewrite (blk_fact_holds _ Cw Hd).
        apply (IH' n) in Hs; [|assumption|assumption]. rewrite Hs. reflexivity.
      * destruct (blk_fact_cases nobind n Cw) as [(u & Hd & E')|[_ E']]; rewrite E'; [|reflexivity].
        destruct (H2 n u Hd) as (v & Hc & _). exfalso. apply (Hn v). exact Hc.
Qed.

Theorem fact_eq_extensional c d :
  wf_chunk c -> wf_chunk d -> fact c -> fact d ->
  (chunk_eqb nobind c d = true <-> same_fact c d).
Proof.
  intros Wc Wd Fc Fd. rewrite chunk_eqb_sig.
  transitivity (hash_value (VChunk c) = hash_value (VChunk d)); [rewrite !hash_chunk; split; congruence|].
  rewrite hash_same_value; try (constructor; assumption); try (intros H; inversion H; fail).
  split; [intros H; inversion H; assumption|intros H; constructor; exact H].
Qed.

(** ** == is an equivalence and a congruence (C02) *)

Lemma chunk_eqb_refl c : chunk_eqb nobind c c = true.
Proof. apply chunk_eqb_sig. reflexivity. Qed.

Lemma chunk_eqb_sym c d : chunk_eqb nobind c d = chunk_eqb nobind d c.
Proof. unfold chunk_eqb. apply hval_eqb_sym. Qed.

Lemma chunk_eqb_trans c d e :
  chunk_eqb nobind c d = true -> chunk_eqb nobind d e = true -> chunk_eqb nobind c e = true.
Proof. rewrite !chunk_eqb_sig. congruence. Qed.

(** ** Python equality of values *)

Lemma val_eqb_refl v : val_eqb v v = true.
Proof.
  destruct v as [| |s|c]; [reflexivity|reflexivity|apply String.eqb_refl|].
  apply (hval_eqb_refl (hash_value (VChunk c))).
Qed.

Lemma val_eqb_sym v w : val_eqb v w = val_eqb w v.
Proof.
  destruct v as [| |s|c], w as [| |t|d]; try reflexivity; [apply String.eqb_sym|].
  apply (hval_eqb_sym (hash_value (VChunk c)) (hash_value (VChunk d))).
Qed.

Lemma not_empty_chunk c : ~ is_empty (VChunk c).
Proof. intros H; inversion H. Qed.

Lemma same_content_sym_aux : forall v, forall w, same_value v w -> same_value w v.
Proof.
  induction v as [| |s|c IH] using value_ind'; intros w H; inversion H as [|? d HF]; subst.
  - constructor.
  - constructor. destruct (same_fact_inv HF) as [H1 H2]. constructor.
    + intros n v Hd. destruct (H2 n v Hd) as (u & Hc & Hs). exists u. split; [exact Hc|].
      destruct (holds_In Hc) as (w & Hin & <-). apply (proj1 (IH n w Hin)). exact Hs.
    + intros n v Hc. destruct (H1 n v Hc) as (u & Hd & Hs). exists u. split; [exact Hd|].
      destruct (holds_In Hc) as (w & Hin & <-). apply (proj1 (IH n w Hin)). exact Hs.
Qed.

Lemma same_value_sym v w : same_value v w -> same_value w v.
Proof. apply same_content_sym_aux. Qed.

Lemma same_value_refl : forall v, ~ is_empty v -> same_value v v.
Proof.
  induction v as [| |s|c IH] using value_ind'; intros Hne; try (exfalso; apply Hne; constructor).
  - constructor.
  - constructor. constructor; intros n v Hv; exists v; (split; [exact Hv|]);
      destruct (holds_In Hv) as (w & Hin & <-); apply (proj1 (IH n w Hin)); apply (holds_nonempty Hv).
Qed.

Lemma same_value_not_empty v w : same_value v w -> (is_empty v <-> is_empty w).
Proof.
  intros H. inversion H; subst; [reflexivity|]. split; intros H'; inversion H'.
Qed.

Lemma same_value_trans : forall v w u, same_value v w -> same_value w u -> same_value v u.
Proof.
  induction v as [| |s|c IH] using value_ind'; intros w u H1 H2; inversion H1 as [|? d HF]; subst.
  - inversion H2; subst. constructor.
  - inversion H2 as [|? e HG]; subst. constructor.
    destruct (same_fact_inv HF) as [F1 F2]. destruct (same_fact_inv HG) as [G1 G2]. constructor.
    + intros n v Hc. destruct (F1 n v Hc) as (x & Hd & S1). destruct (G1 n x Hd) as (y & He & S2).
      exists y. split; [exact He|]. destruct (holds_In Hc) as (w & Hin & <-).
      apply (proj1 (IH n w Hin)) with x; assumption.
    + intros n y He. destruct (G2 n y He) as (x & Hd & S2). destruct (F2 n x Hd) as (v & Hc & S1).
      exists v. split; [exact Hc|]. destruct (holds_In Hc) as (w & Hin & <-).
      apply (proj1 (IH n w Hin)) with x; assumption.
Qed.

Lemma same_content_refl v : same_content v v.
Proof.
  destruct (is_empty_dec v); [left; auto|right]. auto using same_value_refl.
Qed.

Lemma same_content_sym v w : same_content v w -> same_content w v.
Proof. intros [[H1 H2]|(H1 & H2 & H3)]; [left|right]; auto using same_value_sym. Qed.

Lemma same_content_trans v w u : same_content v w -> same_content w u -> same_content v u.
Proof.
  intros [[H1 H2]|(H1 & H2 & H3)] [[H4 H5]|(H4 & H5 & H6)]; try contradiction; [left; auto|].
  right. repeat split; auto. apply same_value_trans with w; assumption.
Qed.

Definition goodv (v : value) : Prop := const_value v /\ wf_value v.

Lemma val_eqb_same_content v w : goodv v -> goodv w -> val_eqb v w = true -> same_content v w.
Proof.
  intros [Cv Wv] [Cw Ww] H.
  destruct v as [| |s|c], w as [| |t|d]; simpl in H; try discriminate;
    try (left; split; constructor; fail).
  - apply String.eqb_eq in H. subst. left. split; constructor.
  - apply String.eqb_eq in H. subst. left. split; constructor.
  - apply String.eqb_eq in H. subst. apply same_content_refl.
  - right. split; [apply not_empty_chunk|]. split; [apply not_empty_chunk|].
    change (hval_eqb (hash_value (VChunk c)) (hash_value (VChunk d)) = true) in H.
    apply hval_eqb_eq in H. apply hash_same_value; auto using not_empty_chunk.
Qed.

Lemma same_content_val_eqb v w :
  goodv v -> goodv w -> v <> VStr "None" -> w <> VStr "None" ->
  same_content v w -> val_eqb v w = true.
Proof.
  intros [Cv Wv] [Cw Ww] Hv Hw [[E1 E2]|(N1 & N2 & S)].
  - inversion E1; inversion E2; subst; try contradiction; reflexivity.
  - inversion S as [|c d HF]; subst; simpl.
    + apply String.eqb_refl.
    + apply (hval_eqb_eq (hash_value (VChunk c)) (hash_value (VChunk d))).
      apply hash_same_value; auto.
Qed.

(** The exact meaning of == when one side is not 'None'. *)
Lemma val_eqb_iff v w :
  goodv v -> goodv w -> v <> VStr "None" -> w <> VStr "None" ->
  (val_eqb v w = true <-> same_content v w).
Proof.
  intros. split; [apply val_eqb_same_content; assumption|apply same_content_val_eqb; assumption].
Qed.
