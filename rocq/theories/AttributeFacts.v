(** Reading the slots of a chunk. *)
From Coq Require Import Lia.
From Verif Require Import Base BaseFacts Chunks ChunkSpec ChunkFacts TypeFacts Attributes.
Local Open Scope string_scope.
Local Open Scope list_scope.

Lemma without_snoc n : without_underscore (n ++ "_") = n.
Proof.
  induction n as [|a n IH]; [reflexivity|]. cbn [append without_underscore]. destruct n as [|b n]; [reflexivity|]. cbn [append] in *. rewrite IH. reflexivity.
Qed.
Lemma iterate_slots c : iterate c = cslots c.
Proof.
  unfold iterate, actrchunk. induction (cslots c) as [|[n v] l IH]; [reflexivity|]. cbn [map fst snd] in *. rewrite without_snoc, IH. reflexivity.
Qed.
Lemma field_get c n : dget (actrchunk c) (n ++ "_") = dget (cslots c) n.
Proof.
  unfold actrchunk. induction (cslots c) as [|[m v] l IH]; [reflexivity|]. cbn [map fst snd dget]. rewrite IH.
  assert (E : String.eqb (m ++ "_") (n ++ "_") = String.eqb m n); [|rewrite E; reflexivity].
  destruct (String.eqb m n) eqn:E; [apply String.eqb_eq in E; subst m; apply String.eqb_refl|].
  apply String.eqb_neq. apply String.eqb_neq in E. intros F. apply E. exact (append_inj_r _ _ _ F).
Qed.
Lemma dset_new {A} (d : dict A) n v : ~ In n (dkeys d) -> dset d n v = d ++ [(n, v)].
Proof.
  induction d as [|[m w] d IH]; intros H; [reflexivity|]. cbn [dset dkeys map fst In] in *. destruct (String.eqb m n) eqn:E.
  - apply String.eqb_eq in E. subst m. tauto.
  - cbn [app]. rewrite IH; [reflexivity|tauto].
Qed.
Lemma asdict_from l : forall d, NoDup (dkeys (d ++ l)) ->
  fold_left (fun d p => dset d (without_underscore (fst p)) (snd p)) (map (fun p : string * slotval => (fst p ++ "_", snd p))%string l) d = d ++ l.
Proof.
  induction l as [|[n v] l IH]; intros d H; [rewrite app_nil_r; reflexivity|]. cbn [map fold_left fst snd]. rewrite without_snoc.
  assert (N : ~ In n (dkeys d)).
  { unfold dkeys in *. rewrite map_app in H. cbn [map fst] in H. apply NoDup_remove_2 in H. intros K. apply H. apply in_or_app. left. exact K. }
  rewrite (dset_new _ _ _ N), IH; rewrite <- app_assoc; [reflexivity|exact H].
Qed.
Theorem asdict_slots c : wf_chunk c -> asdict c = cslots c.
Proof. intros W. apply (asdict_from (cslots c) []). apply wf_NoDup. exact W. Qed.
Theorem attr_slot c n v : wf_chunk c -> In (n, v) (cslots c) -> valid_field n = true -> ~ In n own_names -> getattribute c n = Ok (Slot v).
Proof.
  intros W H F N. unfold getattribute. destruct (smem n own_names) eqn:M; [apply smem_In in M; contradiction|].
  rewrite field_get. assert (G : dget (cslots c) n = Some v) by (apply dget_NoDup; [apply wf_NoDup; exact W|exact H]). rewrite G.
  destruct n as [|a n]; [reflexivity|]. cbn [valid_field] in F. apply andb_prop in F. destruct F as [F _].
  destruct a as [[] [] [] [] [] [] [] []]; try reflexivity; discriminate F.
Qed.
Theorem attr_missing c n : valid_field n = true -> ~ In n own_names -> ~ In n (dkeys (cslots c)) -> getattribute c n = Err EAttr.
Proof.
  intros F N H. unfold getattribute. destruct (smem n own_names) eqn:M; [apply smem_In in M; contradiction|]. rewrite field_get.
  assert (G : dget (cslots c) n = None) by (apply dget_None; exact H). rewrite G.
  destruct n as [|a n]; [reflexivity|]. cbn [valid_field] in F. apply andb_prop in F. destruct F as [F _].
  destruct a as [[] [] [] [] [] [] [] []]; try reflexivity; discriminate F.
Qed.
Theorem item_slot c pos : getitem c pos =
  match nth_error (cslots c) (Z.to_nat (if Z.ltb pos 0 then pos + Z.of_nat (List.length (cslots c)) else pos)) with
  | Some p => if Z.leb (- Z.of_nat (List.length (cslots c))) pos then Ok p else Err EIndex
  | None => Err EIndex
  end.
Proof.
  unfold getitem, actrchunk. rewrite map_length. set (k := if Z.ltb pos 0 then _ else pos). rewrite nth_error_map.
  destruct (Z.ltb k 0) eqn:K.
  - assert (L : Z.leb (- Z.of_nat (List.length (cslots c))) pos = false). { apply Z.ltb_lt in K. apply Z.leb_gt. subst k. destruct (Z.ltb pos 0) eqn:P; [lia|apply Z.ltb_ge in P; lia]. }
    rewrite L. destruct (nth_error (cslots c) (Z.to_nat k)); reflexivity.
  - destruct (nth_error (cslots c) (Z.to_nat k)) as [[n v]|]; [|reflexivity]. cbn [option_map fst snd]. rewrite without_snoc.
    assert (L : Z.leb (- Z.of_nat (List.length (cslots c))) pos = true). { apply Z.ltb_ge in K. apply Z.leb_le. subst k. destruct (Z.ltb pos 0) eqn:P; [lia|apply Z.ltb_ge in P; lia]. }
    rewrite L. reflexivity.
Qed.
Theorem item_there c i p : nth_error (cslots c) i = Some p -> getitem c (Z.of_nat i) = Ok p /\ getitem c (Z.of_nat i - Z.of_nat (List.length (cslots c))) = Ok p.
Proof.
  intros H. assert (L : (i < List.length (cslots c))%nat) by (apply nth_error_Some; congruence). rewrite !item_slot. split.
  - replace (Z.ltb (Z.of_nat i) 0) with false by (symmetry; apply Z.ltb_ge; lia). rewrite Nat2Z.id, H.
    replace (Z.leb _ _) with true by (symmetry; apply Z.leb_le; lia). reflexivity.
  - replace (Z.ltb _ 0) with true by (symmetry; apply Z.ltb_lt; lia). replace (_ + _)%Z with (Z.of_nat i) by lia. rewrite Nat2Z.id, H.
    replace (Z.leb _ _) with true by (symmetry; apply Z.leb_le; lia). reflexivity.
Qed.
Theorem item_outside c pos : (pos < - Z.of_nat (List.length (cslots c)) \/ Z.of_nat (List.length (cslots c)) <= pos)%Z -> getitem c pos = Err EIndex.
Proof.
  intros H. rewrite item_slot. destruct H as [H|H].
  - replace (Z.leb _ _) with false by (symmetry; apply Z.leb_gt; lia). destruct (nth_error _ _); reflexivity.
  - replace (Z.ltb pos 0) with false by (symmetry; apply Z.ltb_ge; lia). replace (nth_error _ _) with (@None (string * slotval)); [reflexivity|]. symmetry. apply nth_error_None. lia.
Qed.
Theorem len_slots c : len c = List.length (cslots c).
Proof. unfold len, actrchunk. apply map_length. Qed.

(** chunktype("rule", "match, action"); makechunk(typename="rule", match="yes", action="go") *)
Definition aw_made : res (registry * chunk) := r <- chunktype init_registry "rule" (FString "match, action") [] [] ;; mk_chunk r "rule" [("match", RStr "yes"); ("action", RStr "go")].
Theorem attr_refuted : exists r c v, aw_made = Ok (r, c) /\ wf_chunk c /\ In ("match", v) (cslots c) /\ getattribute c "match" = Ok (Own "match").
Proof.
  destruct aw_made as [[r c]|] eqn:E; [|vm_compute in E; discriminate]. exists r, c, (plain (VStr "yes")).
  assert (W : wf_chunk c).
  { unfold aw_made in E. destruct (chunktype init_registry "rule" (FString "match, action") [] []) as [r0|] eqn:C; [|discriminate]. cbn [rbind] in E.
    refine (proj1 (mk_chunk_wf _ _ _ _ _ _ _ E)); [eapply chunktype_ok; [|exact C]; apply init_ok|]. intros n x [[= <- <-]|[[= <- <-]|[]]]; exact I. }
  vm_compute in E. injection E as <- <-. split; [reflexivity|]. split; [exact W|]. split; [right; left; reflexivity|reflexivity].
Qed.
Theorem attr_used : exists r c, aw_made = Ok (r, c) /\ wf_chunk c /\ valid_field "action" = true /\ ~ In "action" own_names /\ getattribute c "action" = Ok (Slot (plain (VStr "go"))) /\
  getitem c (-1) = Ok ("match", plain (VStr "yes")) /\ getattribute c "other" = Err EAttr.
Proof.
  destruct attr_refuted as (r & c & v & E & W & _). exists r, c. split; [exact E|]. split; [exact W|]. split; [reflexivity|]. split; [vm_compute; intuition discriminate|].
  vm_compute in E. injection E as <- <-. split; [|split]; reflexivity.
Qed.
