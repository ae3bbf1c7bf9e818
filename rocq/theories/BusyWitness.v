(** Witnesses for Props_Busy.v. *)
From Verif Require Import Base BaseFacts Chunks DecMem DecMemFacts Buffers BufferFacts Productions ProdSpec ProdWitness Environment Sim SimWitness EnvWitness CompileWitness EmmaWitness FreeSpec FreeWitness BusySpec.
Local Open Scope string_scope.

Definition showsb (i : nat) (a v : string) (s : st) : bool :=
  match nth_error (smods s) i with Some m => match dget (mattr m) a with Some x => String.eqb x v | None => false end | None => false end.
Lemma showsb_ok i a v s : shows i a v s <-> showsb i a v s = true.
Proof.
  unfold shows, showsb. split.
  - intros (m & A & B). rewrite A, B. apply String.eqb_refl.
  - destruct (nth_error (smods s) i) as [m|]; [|discriminate]. destruct (dget (mattr m) a) as [x|] eqn:E; [|discriminate]. intros H. apply String.eqb_eq in H. subst x. eauto.
Qed.
Fixpoint waits_busyb (i : nat) (a : string) (t : Z) (tr : list hop) : bool :=
  match tr with
  | [] => true
  | h :: tr' => match hevent h with
                | Some e => (Z.eqb (etime e) t || showsb i a "busy" (hafter h)) && waits_busyb i a (etime e) tr'
                | None => true
                end
  end.
Lemma waits_busyb_ok i a tr : forall t, waits_busy i a t tr -> waits_busyb i a t tr = true.
Proof.
  induction tr as [|h tr IH]; intros t; [reflexivity|]. cbn [waits_busy waits_busyb]. destruct (hevent h) as [e|]; [|reflexivity]. intros [A B]. rewrite (IH _ B).
  destruct A as [A|A]; [apply Z.eqb_eq in A; rewrite A; reflexivity|apply showsb_ok in A; rewrite A; rewrite orb_true_r; reflexivity].
Qed.
Lemma runs_left i g s tr f : runs eq g s tr f -> runs (untouched i) g s tr f.
Proof.
  intros H. induction H; [apply runs_cut|eapply runs_done; eassumption|eapply runs_raise; eassumption|eapply runs_cont; eassumption|eapply runs_yield; [eassumption| |eassumption]]. subst. reflexivity.
Qed.
(** An object that is seen before the movement of the eyes has been prepared. *)
Lemma seen_early : exists O name i c bs t s tr f, module_at i s /\ of_kind (sw s) i KVisual /\ runs (untouched i) (start O MRetrieve name i c bs t) s tr f /\
  map etime (events tr) = [10000; 10100; 10100; 10200]%Z /\ ~ waits_busy i "state" (roundtime t) tr.
Proof.
  exists vx_oracle, "visual", 2%nat, (CChunk (vx_seen "fast")), nobind, 1%Q, (vx_state []), (fst (vx_look "fast")), (snd (vx_look "fast")).
  split; [discriminate|]. split; [eexists; split; reflexivity|]. split; [apply runs_left, alone_runs|]. split; [vm_compute; reflexivity|]. intros H. apply waits_busyb_ok in H. vm_compute in H. discriminate.
Qed.

(** Two keys: the second request comes while the movement of the first is being carried out. *)
Definition bz_think (x y : string) : rule := MkRule [("=g", CChunk (wx_goal x))] [("=g", CChunk (wx_goal y))] 0 None.
Definition bz_press (x y k : string) : rule := MkRule [("=g", CChunk (wx_goal x))] [("=g", CChunk (wx_goal y)); ("+manual", CChunk (kx_key k))] 0 None.
Definition bz_rules : dict rule :=
  [("one", bz_press "start" "2" "a"); ("two", bz_think "2" "3"); ("three", bz_think "3" "4"); ("four", bz_think "4" "5"); ("five", bz_think "5" "6"); ("six", bz_press "6" "end" "j")].
Notation bz_init := (sim_init 0 (kx_state bz_rules) None).
Definition waiting (n : string) (S : sim) (r : prc) : bool :=
  match pcode r with KLocal false m e _ => String.eqb m n && Z.ltb (now S) (etime e) && match ewhat e with WText x => String.eqb x "KEY PRESSED: J" || String.eqb x "MOVEMENT FINISHED" | _ => false end | _ => false end.
Definition restb (S : sim) : bool := match todo S with [] => true | _ => false end.
Definition bz_cut : sim := until wx_oracle (fun S => restb S && existsb (waiting "manual" S) (prs S) && negb (showsb 1 "state" "busy" (ss S))) 600 bz_init.
Lemma find_waiting n S : restb S = true -> dead S = None -> existsb (waiting n S) (prs S) = true -> exists e, waits_for n e S.
Proof.
  intros Hr Hd H. apply existsb_exists in H. destruct H as (r & Hin & W). apply In_nth_error in Hin. destruct Hin as (p & Hp).
  unfold waiting in W. destruct (pcode r) as [| | | | | | | | |[] m e k| | | | |] eqn:E; try discriminate. apply andb_true_iff in W. destruct W as [W _]. apply andb_true_iff in W. destruct W as [W1 W2].
  apply String.eqb_eq in W1. subst m. apply Z.ltb_lt in W2. exists e. split; [unfold restb in Hr; destruct (todo S); [reflexivity|discriminate]|]. split; [exact Hd|]. split; [exact W2|]. exists p, r, k. auto.
Qed.
Lemma free_while_pressing : exists O t s n i e S, of_kind (sw s) i KMotor /\ dget (snames s) n = Some i /\ sim_runs O (sim_init t s None) S /\ waits_for n e S /\ ~ shows i "state" "busy" (ss S).
Proof.
  assert (R : sim_runs wx_oracle bz_init bz_cut) by (unfold bz_cut; apply until_runs; constructor).
  assert (A : restb bz_cut = true) by (vm_compute; reflexivity). assert (B : existsb (waiting "manual" bz_cut) (prs bz_cut) = true) by (vm_compute; reflexivity).
  assert (C : showsb 1 "state" "busy" (ss bz_cut) = false) by (vm_compute; reflexivity). assert (D : dead bz_cut = None) by (vm_compute; reflexivity).
  revert R A B C D. generalize bz_cut. intros S R A B C D. destruct (find_waiting "manual" S A D B) as (e & W).
  exists wx_oracle, 0%Z, (kx_state bz_rules), "manual", 1%nat, e, S. split; [eexists; split; reflexivity|]. split; [reflexivity|]. split; [exact R|]. split; [exact W|].
  intros H. apply showsb_ok in H. rewrite C in H. discriminate.
Qed.
Definition done_at (x : list hop * fin) : st := match rev (fst x) with h :: _ => hafter h | [] => vx_state [] end.
Definition goes_on (x : list hop * fin) : list hop * fin := alone 20 (rest_of (snd x)) (done_at x).
Lemma followed i g s l x : runs eq g s (fst x) (snd x) -> to_cont (snd x) = true -> to_done (snd (goes_on x)) = true ->
  map etime (events (fst x) ++ events (fst (goes_on x))) = l ->
  exists tr l0 h k tr', runs (untouched i) g s tr (FCont k) /\ tr = (l0 ++ [h])%list /\ runs (untouched i) k (hafter h) tr' FDone /\ map etime (events tr ++ events tr') = l.
Proof.
  intros R1 A B C. assert (R2 : runs eq (rest_of (snd x)) (done_at x) (fst (goes_on x)) (snd (goes_on x))) by apply alone_runs.
  rewrite (to_cont_rest _ A) in R1. rewrite (to_done_eq _ B) in R2.
  destruct (rev (fst x)) as [|h rl] eqn:E.
  - exfalso. assert (fst x = []) by (rewrite <- (rev_involutive (fst x)), E; reflexivity). rewrite H in R1. inversion R1.
  - exists (fst x), (rev rl), h, (rest_of (snd x)), (fst (goes_on x)). split; [apply runs_left; exact R1|]. split; [rewrite <- (rev_involutive (fst x)), E; reflexivity|]. split; [|exact C].
    unfold done_at in R2. rewrite E in R2. apply runs_left. exact R2.
Qed.
Lemma busy_cases :
  (module_at 1 (kx_state []) /\ ~ of_kind (sw (kx_state [])) 1 KVisual /\
   exists tr l h k tr', runs (untouched 1) (start wx_oracle MRetrieve "manual" 1 (CChunk (kx_key "a")) nobind 1) (kx_state []) tr (FCont k) /\
     tr = (l ++ [h])%list /\ runs (untouched 1) k (hafter h) tr' FDone /\ map etime (events tr ++ events tr') = [10000; 11500; 12000; 12100; 12100; 13000]%Z) /\
  (module_at 2 (vx_state []) /\ of_kind (sw (vx_state [])) 2 KVisual /\
   exists tr l h k tr', runs (untouched 2) (start vx_oracle MRetrieve "visual" 2 (CChunk (vx_seen "fast")) nobind 1) (vx_state []) tr (FCont k) /\
     tr = (l ++ [h])%list /\ runs (untouched 2) k (hafter h) tr' FDone /\ map etime (events tr ++ events tr') = [10000; 10100; 10100; 10200; 10300; 10300]%Z).
Proof.
  split; (split; [discriminate|]); (split; [first [intros (b & [= <-] & K); discriminate|eexists; split; reflexivity]|]); (eapply followed; [apply (alone_runs 20)| | |]; vm_compute; reflexivity).
Qed.
