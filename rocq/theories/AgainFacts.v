(** Proofs about compiled rules that are created again (C78). *)
From Coq Require Import Qabs Lqa.
From Verif Require Import Base BaseFacts RoundFacts Chunks DecMem Productions Compile CompileFacts AgainSpec.
Local Open Scope Q_scope.

Lemma round4_close x : Qabs (round4 x - x) <= 1 # 20000.
Proof. apply roundtime_close. Qed.
Lemma round4_mono x y : x <= y -> round4 x <= round4 y.
Proof. intros H. apply roundtime_mono in H. unfold round4, Qle. cbn [Qnum Qden]. lia. Qed.
Lemma round4_four u : four_decimals u -> round4 u = u.
Proof. intros [t ->]. unfold round4. f_equal. apply roundtime_seconds. Qed.
Lemma round4_is x : four_decimals (round4 x).
Proof. eexists. reflexivity. Qed.

Lemma name_not_parent n1 n2 k : compiled_name n1 n2 k <> n1.
Proof.
  intros E. apply (f_equal String.length) in E.
  destruct k; cbn [compiled_name] in E; rewrite !length_append in E; cbn [String.length] in E; lia.
Qed.

(** One creation. *)
Theorem again_utility tie s n1 n2 vals n rs : compile_rules tie s n1 n2 vals = Ok (Some (n, true, rs)) ->
  exists u t, utility s n = Some u /\ utility s n1 = Some t /\ n <> n1 /\
    utility (set_rules rs s) n1 = Some t /\
    utility (set_rules rs s) n = Some (if qlearn (sp s) then round4 (u + qalpha (sp s) * (t - u)) else u).
Proof.
  unfold compile_rules. destruct (dget (srules s) n1) as [r1|] eqn:E1; [|discriminate].
  destruct (dget (srules s) n2) as [r2|] eqn:E2; [|discriminate].
  destruct (combine tie s n2 r1 r2 vals) as [[[lhs rhs]|]|]; cbn [rbind]; try discriminate.
  intros H. apply place_cases in H. destruct H as ((k & ->) & [(H & _)|(_ & old & l & r & Eo & _ & _ & _ & _ & ->)]); [discriminate|].
  exists (rutil old), (rutil r1). unfold utility, set_rules. cbn [srules]. rewrite Eo, E1.
  pose proof (name_not_parent n1 n2 k) as N. split; [reflexivity|]. split; [reflexivity|]. split; [exact N|].
  destruct (qlearn (sp s)).
  - rewrite dget_dset_neq by (intros X; apply N; congruence). rewrite E1, dget_dset_eq. auto.
  - rewrite Eo, E1. auto.
Qed.

(** The step of learning. *)
Definition nudge (a t u : Q) : Q := round4 (u + a * (t - u)).

Lemma nudge_between a t u : 0 <= a <= 1 -> four_decimals t -> four_decimals u ->
  (u <= nudge a t u <= t) \/ (t <= nudge a t u <= u).
Proof.
  intros [A0 A1] T U. unfold nudge. pose proof (round4_four t T) as Et. pose proof (round4_four u U) as Eu.
  assert (M : forall x y, x <= y -> round4 x <= round4 y) by exact round4_mono.
  destruct (Qlt_le_dec t u) as [L|L].
  - right. split; [rewrite <- Et at 1|rewrite <- Eu at 3]; apply M; nra.
  - left. split; [rewrite <- Eu at 1|rewrite <- Et at 2]; apply M; nra.
Qed.

Lemma nudge_dist a t u : 0 <= a <= 1 -> Qabs (nudge a t u - t) <= (1 - a) * Qabs (u - t) + (1 # 20000).
Proof.
  intros [A0 A1]. unfold nudge. set (x := u + a * (t - u)).
  assert (E : round4 x - t == (round4 x - x) + (1 - a) * (u - t)) by (unfold x; ring).
  rewrite E. apply (Qle_trans _ _ _ (Qabs_triangle _ _)). rewrite Qabs_Qmult, (Qabs_pos (1 - a)) by lra.
  pose proof (round4_close x). lra.
Qed.

Lemma qpow_nonneg a k : 0 <= a -> 0 <= qpow a k.
Proof. intros H. induction k as [|k IH]; cbn [qpow]; [lra|]. apply Qmult_le_0_compat; assumption. Qed.

Theorem times_utility n1 n2 n k s s' u t :
  created_times n1 n2 n k s s' -> qlearn (sp s) = true -> 0 <= qalpha (sp s) <= 1 ->
  utility s n = Some u -> utility s n1 = Some t ->
  sp s' = sp s /\ utility s' n1 = Some t /\
  exists u', utility s' n = Some u' /\
    qalpha (sp s) * Qabs (u' - t) <= qalpha (sp s) * qpow (1 - qalpha (sp s)) k * Qabs (u - t) + (1 # 20000) /\
    (four_decimals t -> four_decimals u -> four_decimals u' /\ ((u <= u' <= t) \/ (t <= u' <= u))).
Proof.
  intros H L A Eu Et. induction H as [s|k s s1 s' H IH (tie & vals & rs & E & P & Q)].
  - split; [reflexivity|]. split; [exact Et|]. exists u. split; [exact Eu|]. cbn [qpow]. split; [lra|].
    intros _ F. split; [exact F|]. destruct (Qlt_le_dec t u); [right|left]; lra.
  - specialize (IH L A Eu Et). destruct IH as (P1 & Et1 & u1 & Eu1 & D1 & B1).
    destruct (again_utility _ _ _ _ _ _ _ E) as (u0 & t0 & X1 & X2 & _ & X3 & X4).
    rewrite Eu1 in X1. injection X1 as <-. rewrite Et1 in X2. injection X2 as <-.
    rewrite P1, L in X4. fold (nudge (qalpha (sp s)) t u1) in X4.
    split; [congruence|]. split; [rewrite Q by auto; exact X3|]. exists (nudge (qalpha (sp s)) t u1).
    split; [rewrite Q by auto; exact X4|]. set (a := qalpha (sp s)) in *. split.
    + pose proof (nudge_dist a t u1 A) as N. cbn [qpow].
      assert (N1 : a * Qabs (nudge a t u1 - t) <= a * ((1 - a) * Qabs (u1 - t) + (1 # 20000))).
      { rewrite !(Qmult_comm a). apply Qmult_le_compat_r; [exact N|apply A]. }
      assert (N2 : (1 - a) * (a * Qabs (u1 - t)) <= (1 - a) * (a * qpow (1 - a) k * Qabs (u - t) + (1 # 20000))).
      { rewrite !(Qmult_comm (1 - a)). apply Qmult_le_compat_r; [exact D1|lra]. }
      lra.
    + intros T U. destruct (B1 T U) as [F1 B]. split; [apply round4_is|].
      destruct (nudge_between a t u1 A T F1) as [N|N]; destruct B as [B|B]; [left|right|left|right]; lra.
Qed.
