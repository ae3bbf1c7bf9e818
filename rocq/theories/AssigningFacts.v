(** Facts about Assigning.v. *)
From Verif Require Import Base BaseFacts Strings Signatures Defining Assigning.
Local Open Scope string_scope.
Local Open Scope list_scope.

Lemma assign_full d n b u r : assign d n {| m_rule := Some b; m_utility := Some u; m_reward := Some r; m_more := false |} = (dset d n (b, u, r), Ok tt).
Proof. reflexivity. Qed.
Lemma assign_cases d n v : (exists e, v = as_mapping e /\ assign d n v = (dset d n e, Ok tt)) \/ assign d n v = (d, Err EType).
Proof.
  destruct v as [[b|] [u|] [r|] []]; try (right; reflexivity). left. exists (b, u, r). split; reflexivity.
Qed.
Lemma copy_some d n m e : dget d m = Some e -> copy d n m = (dset d n e, Ok tt).
Proof. intros E. unfold copy. rewrite E. destruct e as [[b u] r]. reflexivity. Qed.
Lemma dmem_get {A} (d : dict A) k : dmem d k = match dget d k with Some _ => true | None => false end.
Proof. reflexivity. Qed.

Lemma copy_exact d n m e : dget d m = Some e ->
  exists d', do_edit d (ECopy n m) = (d', Ok tt) /\ dget d' n = Some e /\ dget d' m = Some e /\ forall k, k <> n -> dget d' k = dget d k.
Proof.
  intros E. exists (dset d n e). cbn [do_edit]. rewrite (copy_some d n m e E). split; [reflexivity|]. rewrite !dget_dset, String.eqb_refl. split; [reflexivity|]. split.
  - destruct (String.eqb n m); [reflexivity|exact E].
  - intros k N. rewrite dget_dset. destruct (String.eqb_spec n k); [congruence|reflexivity].
Qed.
Lemma delete_exact d n e : dget d n = Some e ->
  exists d', do_edit d (EDelete n) = (d', Ok tt) /\ dget d' n = None /\ (forall k, k <> n -> dget d' k = dget d k) /\ dkeys d' = filter (fun k => negb (String.eqb k n)) (dkeys d).
Proof.
  intros E. exists (ddel d n). cbn [do_edit]. unfold delete. rewrite dmem_get, E. split; [reflexivity|]. rewrite dget_ddel, String.eqb_refl. split; [reflexivity|]. split.
  - intros k N. rewrite dget_ddel. apply String.eqb_neq in N. rewrite N. reflexivity.
  - unfold ddel, dkeys. clear E. induction d as [|[k x] d IH]; [reflexivity|]. cbn. destruct (String.eqb k n); cbn; rewrite IH; reflexivity.
Qed.
Lemma missing d n k : dget d n = None -> do_edit d (EDelete n) = (d, Err EKey) /\ do_edit d (ECopy k n) = (d, Err EType).
Proof. intros E. cbn. unfold delete, copy. rewrite dmem_get, E. split; reflexivity. Qed.
Lemma failed_edit d c d' x : do_edit d c = (d', Err x) -> d' = d.
Proof.
  destruct c as [n v|n m|n]; cbn.
  - destruct (assign_cases d n v) as [(e & _ & E)|E]; rewrite E; congruence.
  - destruct (dget d m) as [e|] eqn:E; [rewrite (copy_some d n m e E)|unfold copy; rewrite E]; congruence.
  - unfold delete. destruct (dmem d n); congruence.
Qed.
Lemma edit_source d c n e : dget (fst (do_edit d c)) n = Some e -> (exists k, dget d k = Some e) \/ (exists k, c = EAssign k (as_mapping e)).
Proof.
  destruct c as [k v|k m|k]; cbn.
  - destruct (assign_cases d k v) as [(x & Ev & E)|E]; rewrite E; cbn; [|eauto]. rewrite dget_dset. destruct (String.eqb k n); [|eauto].
    intros [= ->]. right. exists k. rewrite Ev. reflexivity.
  - destruct (dget d m) as [x|] eqn:E; [rewrite (copy_some d k m x E)|unfold copy; rewrite E]; cbn; [|eauto]. rewrite dget_dset. destruct (String.eqb k n); [|eauto].
    intros [= ->]. eauto.
  - unfold delete. destruct (dmem d k); cbn; [|eauto]. rewrite dget_ddel. destruct (String.eqb n k); [discriminate|eauto].
Qed.
Lemma edits_source l : forall d n e, dget (edit_all d l) n = Some e -> (exists k, dget d k = Some e) \/ (exists k, In (EAssign k (as_mapping e)) l).
Proof.
  induction l as [|c l IH]; intros d n e H; [left; exists n; exact H|]. destruct (IH (fst (do_edit d c)) n e H) as [(k & Hk)|(k & Hk)].
  - destruct (edit_source d c k e Hk) as [?|(k' & ->)]; [left; assumption|right; exists k'; left; reflexivity].
  - right. exists k. right. exact Hk.
Qed.
Definition about (c : edit) : string := match c with EAssign n _ => n | ECopy n _ => n | EDelete n => n end.
Lemma edit_spares d c n : about c <> n -> dget (fst (do_edit d c)) n = dget d n.
Proof.
  destruct c as [k v|k m|k]; cbn; intros N; assert (E' : String.eqb n k = false) by (apply String.eqb_neq; congruence); assert (E2 : String.eqb k n = false) by (apply String.eqb_neq; exact N).
  - destruct (assign_cases d k v) as [(e & _ & E)|E]; rewrite E; cbn; [rewrite dget_dset, E2|]; reflexivity.
  - destruct (dget d m) as [e|] eqn:E; [rewrite (copy_some d k m e E)|unfold copy; rewrite E]; cbn; [rewrite dget_dset, E2|]; reflexivity.
  - unfold delete. destruct (dmem d k); cbn; [rewrite dget_ddel, E'|]; reflexivity.
Qed.
Lemma edits_spare l : forall d n, Forall (fun c => about c <> n) l -> dget (edit_all d l) n = dget d n.
Proof.
  induction l as [|c l IH]; intros d n H; [reflexivity|]. inversion H; subst. change (edit_all d (c :: l)) with (edit_all (fst (do_edit d c)) l).
  rewrite IH by assumption. apply edit_spares. assumption.
Qed.
