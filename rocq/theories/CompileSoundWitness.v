(** Two rules with variables that compile well. *)
From Coq Require Import Lia.
From Verif Require Import Base BaseFacts Chunks ChunkFacts TypeFacts DecMem Buffers Productions ProdSpec Compile CompileFacts CompileWitness CompileTerms CompileFire CompileSound.
From Verif Require Import ChunkSpec CompileSpec.
Local Open Scope string_scope.
Local Open Scope list_scope.

(** The first rule copies one slot to another, the second one copies it back and overwrites it. *)
Definition copy_p1 := task (v_ "x") (v_ "w") (c_ "start").
Definition copy_m1 := task None (v_ "x") (c_ "next").
Definition copy_p2 := task (v_ "y") (v_ "z") (c_ "next").
Definition copy_m2 := task (c_ "9") (v_ "y") (c_ "done").
Definition copy_rules : dict rule := [("one", on copy_p1 copy_m1); ("two", on copy_p2 copy_m2)].
Definition copy_goal : chunk := task (c_ "5") (c_ "6") (c_ "start").
Definition copy_state : st := cw_state copy_rules copy_goal.
Definition copy_vals : dict slotinfo :=
  [("g", SDict [("a", v_ "x"); ("b", v_ "x"); ("phase", c_ "next")]); ("retrieval", SNone); ("visual_location", SNone)].
Definition copy_new : rule := match compile_rules (fun _ _ => true) copy_state "one" "two" copy_vals with
  | Ok (Some (_, _, rs)) => match dget rs "one and two" with Some r => r | None => on copy_p1 copy_m1 end | _ => on copy_p1 copy_m1 end.
Definition copy_after : st := set_rules (copy_rules ++ [("one and two", copy_new)]) copy_state.

Lemma task_simple a b p : simple a -> simple b -> simple p -> at_ (task a b p) "a" <> TVar "g" -> at_ (task a b p) "b" <> TVar "g" -> at_ (task a b p) "phase" <> TVar "g" ->
  simple_chunk ["a"; "b"; "phase"] "g" (task a b p).
Proof.
  intros A B C Ga Gb Gp. constructor; [reflexivity|intros n s [[= <- <-]|[[= <- <-]|[[= <- <-]|[]]]]; assumption|].
  intros n E. unfold at_, task in *. cbn [cslots dget] in *. destruct (String.eqb "a" n); [exact (Ga E)|]. destruct (String.eqb "b" n); [exact (Gb E)|]. destruct (String.eqb "phase" n); [exact (Gp E)|discriminate].
Qed.
Lemma simple_v x : x <> "" -> simple (v_ x). Proof. intros H. apply simple_var. exact H. Qed.
Lemma simple_c x : proper x -> simple (c_ x). Proof. intros H. apply simple_const. exact H. Qed.
Ltac simple_slot := first [apply simple_unset | apply simple_v; discriminate | apply simple_c; split; [|split; [|split]]; discriminate].
Lemma task_at a b p n : at_ (task a b p) n = if String.eqb "a" n then tm a else if String.eqb "b" n then tm b else if String.eqb "phase" n then tm p else TBlank.
Proof. unfold at_, task. cbn [cslots dget]. destruct (String.eqb "a" n); [reflexivity|]. destruct (String.eqb "b" n); [reflexivity|]. destruct (String.eqb "phase" n); reflexivity. Qed.
Ltac at_cases n := rewrite ?(task_at _ _ _ n) in *; destruct (String.eqb "a" n); [|destruct (String.eqb "b" n); [|destruct (String.eqb "phase" n)]].

Lemma copy_pair : plain_pair ["a"; "b"; "phase"] "g" "task" "two" (on copy_p1 copy_m1) (on copy_p2 copy_m2) copy_p1 copy_m1 copy_p2 copy_m2.
Proof.
  constructor.
  - repeat constructor.
  - constructor; [reflexivity|reflexivity| | |reflexivity]; apply task_simple; try simple_slot; discriminate.
  - constructor; [reflexivity|reflexivity| | |reflexivity]; apply task_simple; try simple_slot; discriminate.
  - intros n w H E. unfold copy_m1 in *. unfold task in H. cbn [cslots dget] in H. at_cases n; cbn in *; discriminate.
  - intros n x E. unfold copy_m1 in E. at_cases n; cbn in E; try discriminate. injection E as <-. exists "a". reflexivity.
  - intros n x E. unfold copy_m2 in E. at_cases n; cbn in E; try discriminate. injection E as <-. exists "a". reflexivity.
  - intros n y _ E. destruct y as [|a [|b y]]; discriminate.
  - intros n n' x y E _. unfold copy_p1 in E. assert (L : (String.length x <= 1)%nat) by (at_cases n; cbn in E; try discriminate; injection E as <-; cbn; lia).
    intros ->. destruct y as [|a [|b y]]; cbn in L; lia.
  - intros n n' y E E'. unfold copy_p2 in *. unfold after1, copy_m1, copy_p1. at_cases n; at_cases n'; cbn in *; congruence.
  - intros n x y E _. unfold after1, copy_m1, copy_p1 in E. assert (L : (String.length x <= 1)%nat) by (at_cases n; cbn in E; try discriminate; injection E as <-; cbn; lia).
    destruct y as [|a [|b y]]; cbn; lia.
  - intros n n' x c E E'. unfold after1, copy_m1, copy_p1 in E. unfold copy_p2 in E'. at_cases n; cbn in *; discriminate.
Qed.
Lemma copy_recorded : recorded cw_oracle copy_state "one" copy_vals.
Proof.
  destruct (fire 60 cw_oracle 0 copy_state "one") as [[s1|]|] eqn:E; [|vm_compute in E; discriminate|vm_compute in E; discriminate].
  exists 0%Q, copy_state, s1. split; [reflexivity|]. split; [reflexivity|]. split; [reflexivity|]. split; [reflexivity|].
  split; [apply (fire_spec _ _ _ _ _ _ E); reflexivity|]. vm_compute in E. injection E as <-. reflexivity.
Qed.
Lemma copy_compiled : compile_rules (fun _ _ => true) copy_state "one" "two" copy_vals = Ok (Some ("one and two", false, copy_rules ++ [("one and two", copy_new)])).
Proof. vm_compute. reflexivity. Qed.
Lemma copy_arena : arena ["a"; "b"; "phase"] "g" "task" copy_after 0 copy_goal.
Proof.
  constructor.
  - reflexivity.
  - eexists. split; [reflexivity|]. split; [discriminate|reflexivity].
  - eexists. split; [vm_compute; reflexivity|]. intros n. reflexivity.
  - change (wreg (sw copy_after)) with cw_reg. unfold cw_reg. destruct (chunktype init_registry "task" (FString "a, b, phase") [] []) as [r|] eqn:E; [|vm_compute in E; discriminate].
    exact (chunktype_ok _ _ _ _ _ _ init_ok E).
  - split; [|split].
    + constructor; [repeat constructor|]. intros n w [[= <- <-]|[[= <- <-]|[[= <- <-]|[]]]]; split; try constructor; intros v [].
    + intros n H. exact H.
    + intros n [<-|[<-|[<-|[]]]]; eexists; (split; [|reflexivity]); split; [|split| |split| |split]; discriminate.
Qed.
Lemma copy_fires : exists s', fires cw_oracle 0 copy_after "one and two" s' /\ goal_is "9" "5" "done" s' = true.
Proof. destruct (fires_if 60 cw_oracle 0 copy_after "one and two" (goal_is "9" "5" "done")) as (s' & F & P & _); [vm_compute; reflexivity|eauto]. Qed.
Lemma copy_parents : exists s1 s2, fires cw_oracle 0 copy_after "one" s1 /\ fires cw_oracle 0 s1 "two" s2 /\ goal_is "9" "5" "done" s2 = true.
Proof.
  destruct (fires_if 60 cw_oracle 0 copy_after "one"
    (fun s1 => match fire 60 cw_oracle 0 s1 "two" with Some (Some s2) => goal_is "9" "5" "done" s2 | _ => false end)) as (s1 & F1 & P & _); [vm_compute; reflexivity|].
  destruct (fires_if _ _ _ _ _ _ P) as (s2 & F2 & P2 & _). eauto.
Qed.
