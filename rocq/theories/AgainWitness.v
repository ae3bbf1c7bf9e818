(** A compiled rule whose utility never becomes that of its first parent (C78). *)
From Coq Require Import Qabs Lqa.
From Verif Require Import Base BaseFacts Chunks DecMem Productions Compile Sim SimWitness CompileWitness AgainSpec AgainFacts.
Local Open Scope string_scope.

Definition ax_rule (s : st) (n : string) (u : Q) : st :=
  match dget (srules s) n with Some r => set_rules (dset (srules s) n (set_util r u)) s | None => s end.
Definition ax_learning (s : st) : st :=
  let p := sp s in
  MkSt (MkPar (qsub p) (qnoise p) (qfiring p) true (1 # 5) (qstrict p) (qcompile p) (qautosearch p))
    (sw s) (snames s) (sdm s) (smods s) (sprep s) (sextra s) (svars s) (srules s) (sorder s) (sused s)
    (sprocs s) (snext s) (skeys s) (srule s) (scur s) (slastv s) (slast s) (scomp s) (sscreen s).
Definition ax_state (u : Q) : st :=
  ax_rule (ax_rule (ax_learning (ss (cw_sim loop_rules cw_goal 300))) "one" 5) "one and two" u.
Definition ax_vals : dict slotinfo := [("g", SDict [("a", None); ("b", None); ("phase", c_ "next")])].

Definition ax_near : Q := (49998 # 10000)%Q.

Definition ax_next (s : st) : option st :=
  match compile_rules (fun _ _ => true) s "one" "two" ax_vals with
  | Ok (Some (n, true, rs)) => if String.eqb n "one and two" then Some (set_rules rs s) else None
  | _ => None
  end.
Lemma ax_next_ok s s' : ax_next s = Some s' -> created_again "one" "two" "one and two" s s'.
Proof.
  unfold ax_next. destruct (compile_rules _ s "one" "two" ax_vals) as [[[[n []] rs]|]|] eqn:E; try discriminate.
  destruct (String.eqb n "one and two") eqn:En; [|discriminate]. apply String.eqb_eq in En. subst n.
  intros X. injection X as <-. exists (fun _ _ => true), ax_vals, rs. split; [exact E|]. split; reflexivity.
Qed.

Definition ax_utils (o : option st) : option (option Q * option Q) :=
  match o with Some s => Some (utility s "one", utility s "one and two") | None => None end.

Lemma ax_stays : ax_utils (ax_next (ax_state ax_near)) = Some (Some 5%Q, Some ax_near).
Proof. vm_compute. reflexivity. Qed.
Lemma ax_moves : ax_utils (ax_next (ax_state 1)) = Some (Some 5%Q, Some (18000 # 10000)%Q).
Proof. vm_compute. reflexivity. Qed.
Lemma ax_start u : utility (ax_state u) "one" = Some 5%Q /\ utility (ax_state u) "one and two" = Some u.
Proof. split; vm_compute; reflexivity. Qed.
Lemma ax_pars u : qlearn (sp (ax_state u)) = true /\ qalpha (sp (ax_state u)) = (1 # 5)%Q.
Proof. split; vm_compute; reflexivity. Qed.

(** The utility stays where it is. *)
Lemma ax_again : created_again "one" "two" "one and two" (ax_state ax_near) (ax_state ax_near).
Proof.
  pose proof ax_stays as H. destruct (ax_next (ax_state ax_near)) as [s'|] eqn:E; [|discriminate].
  cbn [ax_utils] in H. injection H as H1 H2. destruct (ax_next_ok _ _ E) as (tie & vals & rs & A & B & C).
  exists tie, vals, rs. split; [exact A|]. split; [reflexivity|]. intros m Hm. rewrite <- C by exact Hm.
  destruct (ax_start ax_near) as [S1 S2]. destruct Hm as [->| ->]; congruence.
Qed.

Theorem never_reached : exists n1 n2 n s u t,
  qlearn (sp s) = true /\ (0 < qalpha (sp s) <= 1)%Q /\ utility s n = Some u /\ utility s n1 = Some t /\ ~ (u == t)%Q /\
  forall k, created_times n1 n2 n k s s.
Proof.
  exists "one", "two", "one and two", (ax_state ax_near), ax_near, 5%Q.
  destruct (ax_start ax_near) as [S1 S2]. destruct (ax_pars ax_near) as [P1 P2].
  split; [exact P1|]. split; [rewrite P2; split; [reflexivity|discriminate]|]. split; [exact S2|]. split; [exact S1|].
  split; [discriminate|]. induction k as [|k IH]; [constructor|]. econstructor; [exact IH|exact ax_again].
Qed.

Theorem again_used : exists s', created_again "one" "two" "one and two" (ax_state 1) s' /\
  utility (ax_state 1) "one and two" = Some 1%Q /\ utility (ax_state 1) "one" = Some 5%Q /\
  utility s' "one and two" = Some (18000 # 10000)%Q.
Proof.
  pose proof ax_moves as H. destruct (ax_next (ax_state 1)) as [s'|] eqn:E; [|discriminate].
  cbn [ax_utils] in H. injection H as H1 H2. exists s'. split; [exact (ax_next_ok _ _ E)|].
  destruct (ax_start 1) as [S1 S2]. auto.
Qed.
