(** Concrete shifts of attention and screens (C91 to C96). *)
From Coq Require Import Reals Qreals Lra.
From Verif Require Import Base Chunks Buffers BufferFacts Productions ProdSpec SimSpec SimWitness ShiftFacts SafeSpec Emma EmmaFacts.
Local Open Scope string_scope.
Local Open Scope list_scope.

Lemma vx_sane : sane_times vx_oracle.
Proof.
  intros u i c bs w ch enc prep exe site. unfold vx_oracle. cbn [oshift]. destruct c as [o| | |]; try discriminate. intros H.
  destruct (val_eqb (VChunk o) (VChunk (vx_seen "slow"))); injection H as _ _ <- <- <- _; repeat split; unfold Qle; cbn; discriminate.
Qed.

(** A run of a generator that nothing disturbs. *)
Fixpoint alone (n : nat) (g : gen) (s : st) : list hop * fin :=
  match n with
  | 0%nat => ([], FCut)
  | S n' => match resume g s with
            | (s', ns, ODone) => ([MkHop s ns None s'], FDone)
            | (s', ns, ORaise e) => ([MkHop s ns None s'], FRaise e)
            | (s', ns, OCont k) => ([MkHop s ns None s'], FCont k)
            | (s', ns, OYield e k) => (MkHop s ns (Some e) s' :: fst (alone n' k s'), snd (alone n' k s'))
            end
  end.
Lemma alone_runs n : forall g s, runs eq g s (fst (alone n g s)) (snd (alone n g s)).
Proof.
  induction n as [|n IH]; intros g s; cbn [alone]; [constructor|]. destruct (resume g s) as [[s' ns] [| | |]] eqn:E; cbn [fst snd].
  all: try (constructor; exact E). econstructor; [exact E|reflexivity|apply IH].
Qed.
Definition rest_of (f : fin) : gen := match f with FCont k => k | _ => GRet end.
Definition to_cont (f : fin) : bool := match f with FCont _ => true | _ => false end.
Definition to_done (f : fin) : bool := match f with FDone => true | _ => false end.
Lemma to_cont_rest f : to_cont f = true -> f = FCont (rest_of f). Proof. destruct f; discriminate || reflexivity. Qed.
Lemma to_done_eq f : to_done f = true -> f = FDone. Proof. destruct f; discriminate || reflexivity. Qed.

Definition vx_look (x : string) : list hop * fin := alone 9 (start vx_oracle MRetrieve "visual" 2 (CChunk (vx_seen x)) nobind 1) (vx_state []).
Definition vx_move (x : string) : list hop * fin := alone 9 (rest_of (snd (vx_look x))) (vx_state []).
Lemma vx_looked x l : to_cont (snd (vx_look x)) = true -> to_done (snd (vx_move x)) = true ->
  map etime (events (fst (vx_look x)) ++ events (fst (vx_move x))) = l ->
  exists tr g tr', runs eq (start vx_oracle MRetrieve "visual" 2 (CChunk (vx_seen x)) nobind 1) (vx_state []) tr (FCont g) /\
  runs eq g (vx_state []) tr' FDone /\ map etime (events tr ++ events tr') = l.
Proof.
  intros A B C. exists (fst (vx_look x)), (rest_of (snd (vx_look x))), (fst (vx_move x)). split; [|split; [|exact C]].
  - rewrite <- (to_cont_rest _ A). apply alone_runs.
  - rewrite <- (to_done_eq _ B). apply alone_runs.
Qed.
(** An object that is seen before the eyes move, and one that is seen after. *)
Lemma vx_runs : exists tr g tr', runs eq (start vx_oracle MRetrieve "visual" 2 (CChunk (vx_seen "fast")) nobind 1) (vx_state []) tr (FCont g) /\
  runs eq g (vx_state []) tr' FDone /\ map etime (events tr ++ events tr') = [10000; 10100; 10100; 10200; 10300; 10300]%Z.
Proof. apply vx_looked; vm_compute; reflexivity. Qed.
Lemma vx_runs_late : exists tr g tr', runs eq (start vx_oracle MRetrieve "visual" 2 (CChunk (vx_seen "slow")) nobind 1) (vx_state []) tr (FCont g) /\
  runs eq g (vx_state []) tr' FDone /\ map etime (events tr ++ events tr') = [10000; 10200; 10300; 10300; 13000; 13000]%Z.
Proof. apply vx_looked; vm_compute; reflexivity. Qed.
Lemma vx_still : (mvt_of (vx_state []) 2 <= 1 + (2 # 100))%Q. Proof. vm_compute. discriminate. Qed.

(** EMMA switched off. *)
Definition ew_oracle : oracle :=
  MkOr (onoise vx_oracle) (oretr vx_oracle) (oexec vx_oracle) (ofind vx_oracle)
       (fun s _ c _ => match c with CChunk o => (sw s, Ok (o, (85 # 1000, 0, 85 # 1000)%Q, (0, 0)%Q)) | _ => (sw s, Err EActr) end)
       (ocompile vx_oracle) (oauto vx_oracle) (oautobuf vx_oracle).
Local Open Scope R_scope.
Lemma ew_follows : follows_emma ew_oracle.
Proof.
  intros s i c bs w ch enc prep exe site. unfold ew_oracle. cbn [oshift]. destruct c as [o| | |]; try discriminate. intros [= _ _ _ _ <- _].
  exists (MkEmma false 0 0), usual_screen, (0, 0), (0, 0), None. split; [exact usual_visible|]. cbn.
  assert (X : Q2R (85 # 1000) = 85 / 1000) by (unfold Q2R; cbn; lra). rewrite X. rewrite Rminus_diag_eq by reflexivity. rewrite Rabs_R0. lra.
Qed.

Lemma ew_angle : visual_angle (0, 0) (640, 0) usual_screen = PI / 4.
Proof.
  rewrite (angle_atan _ _ _ usual_visible). unfold pixels_apart, px_per_cm, usual_screen. cbn [fst snd dsize dscreen dview].
  replace ((640 - 0) * (640 - 0) + (0 - 0) * (0 - 0)) with (640 * 640) by ring. rewrite sqrt_square by lra.
  replace (640 / (640 / 50) / 50) with 1 by field. apply atan_1.
Qed.
Definition ew_square : display := MkDisp (640, 358.4) (50, 28) 50.
Lemma ew_squares : visible ew_square /\ height_px_per_cm ew_square = px_per_cm ew_square.
Proof. unfold visible, height_px_per_cm, px_per_cm, ew_square. cbn [fst snd dsize dscreen dview]. split; lra. Qed.
