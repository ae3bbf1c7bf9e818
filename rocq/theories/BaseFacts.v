(** Lemmas about the Python notions of Base.v: dictionaries, sorting, string order, rounding. *)
From Verif Require Import Base.
From Coq Require Import OrderedTypeEx Permutation.
Local Open Scope string_scope.
#[local] Set Implicit Arguments.

(** ** Dictionaries *)

Lemma dget_In {A} (d : dict A) k a : dget d k = Some a -> In (k, a) d.
Proof.
  induction d as [|[k' a'] d IH]; simpl; [discriminate|].
  destruct (String.eqb_spec k' k) as [->|]; [intros [= ->]; auto|auto].
Qed.

Lemma dget_None {A} (d : dict A) k : dget d k = None <-> ~ In k (dkeys d).
Proof.
  induction d as [|[k' a'] d IH]; simpl; [split; auto|].
  destruct (String.eqb_spec k' k) as [->|Hne].
  - split; [discriminate|]. intros H. exfalso. apply H. auto.
  - rewrite IH. split; intros H H1; apply H; [destruct H1; congruence|auto].
Qed.

Lemma dget_Some_key {A} (d : dict A) k a : dget d k = Some a -> In k (dkeys d).
Proof. intros H. apply dget_In in H. apply (in_map fst) in H. exact H. Qed.

Lemma dget_NoDup {A} (d : dict A) k a : NoDup (dkeys d) -> In (k, a) d -> dget d k = Some a.
Proof.
  induction d as [|[k' a'] d IH]; simpl; [intros _ []|].
  intros Hnd. inversion Hnd as [|x l Hnin Hnd' E]; subst. intros [[= -> ->]|Hin].
  - rewrite String.eqb_refl. reflexivity.
  - destruct (String.eqb_spec k' k) as [->|Hne]; [|auto].
    exfalso. apply Hnin. apply (in_map fst) in Hin. exact Hin.
Qed.

Lemma dget_dset_eq {A} (d : dict A) k a : dget (dset d k a) k = Some a.
Proof.
  induction d as [|[k' a'] d IH]; simpl.
  - rewrite String.eqb_refl. reflexivity.
  - destruct (String.eqb_spec k' k) as [->|Hne]; simpl.
    + rewrite String.eqb_refl. reflexivity.
    + destruct (String.eqb_spec k' k); [congruence|exact IH].
Qed.

Lemma dget_dset_neq {A} (d : dict A) k k' a : k <> k' -> dget (dset d k a) k' = dget d k'.
Proof.
  intros Hne. induction d as [|[k1 a1] d IH]; simpl.
  - destruct (String.eqb_spec k k'); [contradiction|reflexivity].
  - destruct (String.eqb_spec k1 k) as [->|Hne1]; simpl.
    + destruct (String.eqb_spec k k'); [contradiction|reflexivity].
    + destruct (String.eqb_spec k1 k'); [reflexivity|exact IH].
Qed.

Lemma dget_dset {A} (d : dict A) k k' a :
  dget (dset d k a) k' = if String.eqb k k' then Some a else dget d k'.
Proof.
  destruct (String.eqb_spec k k') as [->|H]; [apply dget_dset_eq|apply dget_dset_neq; exact H].
Qed.

Lemma dkeys_dset {A} (d : dict A) k a :
  dkeys (dset d k a) = if dmem d k then dkeys d else (dkeys d ++ [k])%list.
Proof.
  unfold dmem. induction d as [|[k1 a1] d IH]; simpl; [reflexivity|].
  destruct (String.eqb_spec k1 k) as [->|Hne]; simpl; [reflexivity|].
  rewrite IH. destruct (dget d k); reflexivity.
Qed.

Lemma dget_map_snd {A B} (f : A -> B) (d : dict A) k :
  dget (map (fun p => (fst p, f (snd p))) d) k = option_map f (dget d k).
Proof.
  induction d as [|[k1 a1] d IH]; simpl; [reflexivity|].
  destruct (String.eqb k1 k); [reflexivity|exact IH].
Qed.

Lemma dget_Permutation {A} (d e : dict A) k :
  Permutation d e -> NoDup (dkeys d) -> dget d k = dget e k.
Proof.
  intros HP Hnd.
  assert (Hnd' : NoDup (dkeys e)).
  { apply (Permutation_NoDup (Permutation_map fst HP)). exact Hnd. }
  destruct (dget d k) as [a|] eqn:E.
  - symmetry. apply dget_NoDup; [exact Hnd'|]. apply (Permutation_in _ HP). apply dget_In. exact E.
  - symmetry. apply dget_None. apply dget_None in E. intros H. apply E.
    apply (Permutation_in k (Permutation_sym (Permutation_map fst HP))). exact H.
Qed.

Lemma dget_filter {A} (f : string -> bool) (d : dict A) k :
  dget (filter (fun p => f (fst p)) d) k = if f k then dget d k else None.
Proof.
  induction d as [|[k1 a1] d IH]; simpl; [destruct (f k); reflexivity|].
  destruct (f k1) eqn:E1; simpl; destruct (String.eqb_spec k1 k) as [->|Hne].
  - rewrite E1. reflexivity.
  - exact IH.
  - rewrite E1. rewrite IH, E1. reflexivity.
  - exact IH.
Qed.

Lemma dget_ddel {A} (d : dict A) k k' :
  dget (ddel d k) k' = if String.eqb k' k then None else dget d k'.
Proof.
  unfold ddel. rewrite (dget_filter (fun x => negb (String.eqb x k))).
  destruct (String.eqb k' k); reflexivity.
Qed.

(** ** Membership *)

Lemma smem_In k l : smem k l = true <-> In k l.
Proof.
  unfold smem. rewrite existsb_exists. split.
  - intros (x & Hin & E). apply String.eqb_eq in E. subst. exact Hin.
  - intros Hin. exists k. split; [exact Hin|apply String.eqb_refl].
Qed.

Lemma smem_not_In k l : smem k l = false <-> ~ In k l.
Proof. rewrite <- smem_In, not_true_iff_false. reflexivity. Qed.

Lemma smem_Permutation k l m : Permutation l m -> smem k l = smem k m.
Proof.
  intros H. destruct (smem k m) eqn:E.
  - apply smem_In. apply smem_In in E. apply (Permutation_in k (Permutation_sym H) E).
  - apply smem_not_In. apply smem_not_In in E. intros Hin. apply E. apply (Permutation_in k H Hin).
Qed.

Lemma sdedup_from_In seen l x : In x (sdedup_from seen l) <-> In x l /\ ~ In x seen.
Proof.
  revert seen. induction l as [|a l IH]; intros seen; simpl; [tauto|].
  destruct (smem a seen) eqn:E.
  - apply smem_In in E. rewrite IH. split; [tauto|]. intros [[->|H] H']; tauto.
  - apply smem_not_In in E. simpl. rewrite IH. simpl. split.
    + intros [->|[H H']]; [tauto|]. split; [tauto|]. intros Hs. apply H'. auto.
    + intros [[->|H] H']; [tauto|]. destruct (string_dec a x) as [->|Hne]; [tauto|].
      right. split; [exact H|]. intros [?|?]; [congruence|tauto].
Qed.

Lemma sdedup_In l x : In x (sdedup l) <-> In x l.
Proof. unfold sdedup. rewrite sdedup_from_In. simpl. tauto. Qed.

Lemma sdedup_from_NoDup seen l : NoDup (sdedup_from seen l).
Proof.
  revert seen. induction l as [|a l IH]; intros seen; simpl; [constructor|].
  destruct (smem a seen) eqn:E; [apply IH|]. constructor; [|apply IH].
  rewrite sdedup_from_In. simpl. tauto.
Qed.

Lemma sdedup_NoDup l : NoDup (sdedup l).
Proof. apply sdedup_from_NoDup. Qed.

Lemma sdedup_from_id seen l :
  NoDup l -> (forall x, In x l -> ~ In x seen) -> sdedup_from seen l = l.
Proof.
  revert seen. induction l as [|a l IH]; intros seen Hnd Hd; simpl; [reflexivity|].
  inversion Hnd; subst. destruct (smem a seen) eqn:E.
  - apply smem_In in E. exfalso. apply (Hd a); simpl; auto.
  - f_equal. apply IH; [assumption|]. intros x Hin [->|Hs]; [contradiction|].
    apply (Hd x); simpl; auto.
Qed.

Lemma sdedup_id l : NoDup l -> sdedup l = l.
Proof. intros H. apply sdedup_from_id; [exact H|simpl; auto]. Qed.

(** ** String order *)

Lemma compare_refl s : String.compare s s = Eq.
Proof. apply String_as_OT.cmp_eq. reflexivity. Qed.

Lemma compare_lt_trans a b c :
  String.compare a b = Lt -> String.compare b c = Lt -> String.compare a c = Lt.
Proof.
  change String.compare with String_as_OT.cmp. rewrite !String_as_OT.cmp_lt.
  apply String_as_OT.lt_trans.
Qed.

Lemma length_append a b : String.length (a ++ b) = (String.length a + String.length b)%nat.
Proof. induction a as [|c a IH]; simpl; auto. Qed.

Lemma append_nil_r s : s ++ "" = s.
Proof. induction s as [|c s IH]; simpl; congruence. Qed.

Lemma append_assoc a b c : (a ++ b) ++ c = a ++ (b ++ c).
Proof. induction a as [|x a IH]; simpl; congruence. Qed.

Lemma append_inj_r a b t : a ++ t = b ++ t -> a = b.
Proof.
  revert b. induction a as [|c a IH]; intros [|c' b]; simpl; intros H; auto.
  - apply (f_equal String.length) in H. simpl in H. rewrite length_append in H. lia.
  - apply (f_equal String.length) in H. simpl in H. rewrite length_append in H. lia.
  - injection H as -> H. f_equal. apply IH. exact H.
Qed.

(** ** Sorting *)

Section SortFacts.
  Variable A : Type.
  Variable leb : A -> A -> bool.
  Hypothesis leb_total : forall a b, leb a b = true \/ leb b a = true.
  Hypothesis leb_trans : forall a b c, leb a b = true -> leb b c = true -> leb a c = true.

  Fixpoint sortedb (l : list A) : Prop :=
    match l with
    | [] => True
    | a :: l' => Forall (fun b => leb a b = true) l' /\ sortedb l'
    end.

  Lemma insert_perm a l : Permutation (insert_sorted leb a l) (a :: l).
  Proof.
    induction l as [|b l IH]; simpl; [reflexivity|].
    destruct (leb a b); [reflexivity|]. rewrite IH. apply perm_swap.
  Qed.

  Lemma isort_perm l : Permutation (isort leb l) l.
  Proof.
    induction l as [|a l IH]; simpl; [constructor|]. rewrite insert_perm. constructor. exact IH.
  Qed.

  Lemma insert_sortedb a l : sortedb l -> sortedb (insert_sorted leb a l).
  Proof.
    induction l as [|b l IH]; simpl; [intros _; split; [constructor|exact I]|].
    intros [Hb Hl]. destruct (leb a b) eqn:E; simpl.
    - split; [|split; assumption]. constructor; [exact E|].
      rewrite Forall_forall in *. intros x Hx. apply leb_trans with b; auto.
    - split; [|apply IH; exact Hl].
      rewrite Forall_forall in *. intros x Hx.
      apply (Permutation_in x (insert_perm a l)) in Hx. destruct Hx as [->|Hx]; [|auto].
      destruct (leb_total x b); congruence.
  Qed.

  Lemma isort_sorted l : sortedb (isort leb l).
  Proof. induction l as [|a l IH]; simpl; [exact I|]. apply insert_sortedb. exact IH. Qed.

  Hypothesis leb_antisym : forall a b, leb a b = true -> leb b a = true -> a = b.

  Lemma sorted_perm_eq l m : sortedb l -> sortedb m -> Permutation l m -> l = m.
  Proof.
    revert m. induction l as [|a l IH]; intros m Hl Hm HP.
    - apply Permutation_nil in HP. auto.
    - destruct m as [|b m]; [symmetry in HP; apply Permutation_nil in HP; discriminate|].
      simpl in Hl, Hm. destruct Hl as [Ha Hl], Hm as [Hb Hm]. rewrite Forall_forall in Ha, Hb.
      assert (a = b) as ->.
      { assert (H1 : In a (b :: m)) by (apply (Permutation_in a HP); simpl; auto).
        assert (H2 : In b (a :: l))
          by (apply (Permutation_in b (Permutation_sym HP)); simpl; auto).
        destruct H1 as [H1|H1]; [auto|]. destruct H2 as [H2|H2]; [auto|]. auto. }
      f_equal. apply IH; auto. apply Permutation_cons_inv with b. exact HP.
  Qed.

  Lemma isort_Permutation l m : Permutation l m -> isort leb l = isort leb m.
  Proof.
    intros HP. apply sorted_perm_eq; try apply isort_sorted.
    rewrite !isort_perm. exact HP.
  Qed.
End SortFacts.

(** Stability: elements with equivalent keys keep their relative order. *)
Section Stable.
  Variable A : Type.
  Variable key : A -> Z.
  Let leb (a b : A) := (key a <=? key b)%Z.

  Lemma insert_stable a l (k : Z) :
    sortedb leb l ->
    filter (fun x => (key x =? k)%Z) (insert_sorted leb a l)
    = filter (fun x => (key x =? k)%Z) (a :: l).
  Proof.
    induction l as [|b l IH]; [reflexivity|].
    intros [Hb Hl]. cbn [insert_sorted]. destruct (leb a b) eqn:E; [reflexivity|].
    simpl. rewrite IH by exact Hl. simpl. unfold leb in E. apply Z.leb_gt in E.
    destruct (Z.eqb_spec (key b) k), (Z.eqb_spec (key a) k); try reflexivity. lia.
  Qed.

  Lemma isort_stable l (k : Z) :
    filter (fun x => (key x =? k)%Z) (isort leb l) = filter (fun x => (key x =? k)%Z) l.
  Proof.
    induction l as [|a l IH]; [reflexivity|]. cbn [isort]. rewrite insert_stable.
    - simpl. rewrite IH. reflexivity.
    - apply isort_sorted; unfold leb; intros.
      + rewrite !Z.leb_le. lia.
      + rewrite !Z.leb_le in *. lia.
  Qed.
End Stable.

(** ** The result monad *)

Lemma rbind_Ok {A B} (x : res A) (f : A -> res B) b :
  rbind x f = Ok b -> exists a, x = Ok a /\ f a = Ok b.
Proof. destruct x as [a|e]; simpl; [eauto|discriminate]. Qed.

Ltac inv_ok H :=
  match type of H with
  | rbind ?x ?f = Ok ?b =>
      let a := fresh "a" in let E := fresh "E" in
      destruct (rbind_Ok x f H) as (a & E & H'); clear H; rename H' into H; cbv beta in H
  end.
