(** Facts about right-hand sides: order of actions and strict harvesting. *)
From Coq Require Import Permutation Sorted.
From Verif Require Import Base BaseFacts Chunks DecMem Buffers Productions ProdSpec ProdFacts.
Local Open Scope string_scope.

(** ** Generators seen as trees *)

(** The actions that [g] starts are a prefix of [l], all of [l] if it returns; it yields quiet
    events only and no other generator. *)
Fixpoint notes (g : gen) (l : list string) : Prop :=
  match g with
  | GRet => l = []
  | GRaise _ => True
  | GYield e k => quiet e /\ notes k l
  | GCont _ => False
  | GNote n k => exists l', l = n :: l' /\ notes k l'
  | GAct _ k => notes k l
  | GGet k => forall s, notes (k s) l
  end.

Lemma notes_gseq g : forall k l, notes g [] -> notes k l -> notes (gseq g k) l.
Proof.
  induction g as [|e|e g IH|g IH|n g IH|f g IH|h IH]; cbn [gseq notes]; intros k l Hg Hk; auto.
  - split; [tauto|]. apply IH; tauto.
  - destruct Hg as (l' & Hl & _). discriminate.
Qed.

Lemma notes_resume g : forall l s s' ns o, notes g l -> resume g s = (s', ns, o) ->
  exists rest, l = (ns ++ rest)%list /\
    match o with
    | ODone => rest = []
    | ORaise _ => True
    | OYield e k => quiet e /\ notes k rest
    | OCont _ => False
    end.
Proof.
  induction g as [|e|e g IH|g IH|n g IH|f g IH|h IH]; cbn [resume notes]; intros l s s' ns o Hn H.
  - inversion H; subst. exists []. auto.
  - inversion H; subst. exists l. auto.
  - inversion H; subst. exists l. auto.
  - contradiction.
  - destruct Hn as (l' & -> & Hn). destruct (resume g s) as [[s1 ns1] o1] eqn:E. inversion H; subst.
    destruct (IH _ _ _ _ _ Hn E) as (rest & -> & Ho). exists rest. auto.
  - eauto.
  - eauto.
Qed.

Lemma notes_runs R g s tr f : runs R g s tr f -> forall l, notes g l ->
  exists rest, l = (started tr ++ rest)%list /\ (f = FDone -> rest = []) /\ (forall k, f <> FCont k) /\
    Forall quiet (events tr).
Proof.
  induction 1 as [g s|g s s' ns H|g s s' ns e H|g s s' ns k H|g s s' ns e k s'' tr f H HR Hr IH]; intros l Hn.
  - exists l. repeat split; try discriminate. constructor.
  - destruct (notes_resume _ _ _ _ _ _ Hn H) as (rest & -> & Hrest). exists rest. cbn. rewrite app_nil_r.
    repeat split; auto; try discriminate.
  - destruct (notes_resume _ _ _ _ _ _ Hn H) as (rest & -> & Hrest). exists rest. cbn. rewrite app_nil_r.
    repeat split; auto; try discriminate.
  - destruct (notes_resume _ _ _ _ _ _ Hn H) as (rest & -> & Hrest). contradiction.
  - destruct (notes_resume _ _ _ _ _ _ Hn H) as (rest & -> & Hq & Hk).
    destruct (IH _ Hk) as (rest' & -> & Hf & Hc & Hev). exists rest'. cbn.
    unfold started at 1. cbn. fold (started tr). rewrite app_assoc.
    repeat split; auto.
Qed.

Lemma quiet_text t n x : quiet (ev t n (WText x)).
Proof. right. now exists x. Qed.
Lemma quiet_unknown t n : quiet (ev t n WUnknown).
Proof. now left. Qed.

Lemma notes_gcall {A} (f : st -> world * res A) k l : (forall a, notes (k a) l) -> notes (gcall f k) l.
Proof. intros H s. destruct (f s) as [w [a|e]]; cbn; auto. Qed.
Lemma notes_record f k l : notes k l -> notes (g_record f k) l.
Proof. intros H s. destruct (f s); cbn; auto. Qed.

Ltac notes_tac :=
  repeat (cbn [notes]; cbv beta zeta;
    first [ apply notes_gcall; intro | apply notes_record | apply notes_gseq | reflexivity | exact I
          | apply quiet_text | apply quiet_unknown | split
          | match goal with |- forall _ : st, _ => intro end
          | match goal with |- notes (match ?x with _ => _ end) _ => destruct x end
          | match goal with |- notes (match ?x with _ => _ end _) _ => destruct x end
          | match goal with |- notes (if ?x then _ else _) _ => destruct x end ]).

Lemma notes_start O m name i c bs t : interruptible m = false -> notes (start O m name i c bs t) [].
Proof.
  intro H. destruct m; try discriminate; unfold start, g_extra, g_modify, g_execute, g_clear, g_overwrite; notes_tac.
Qed.

Lemma rhs_meth_rank c : (exists n, rank c = Some n) <-> (exists m, rhs_meth c = Some m).
Proof.
  unfold rank, rhs_meth.
  repeat match goal with |- context[Ascii.eqb c ?x] => destruct (Ascii.eqb c x) end;
    split; intros [n H]; eauto; discriminate.
Qed.

Lemma notes_actions O t : forall l temp, notes (actions O t temp l) (map fst l).
Proof.
  induction l as [|[key c] l IH]; intro temp; cbn [actions map fst].
  - intro s. destruct (qstrict (sp s)); reflexivity.
  - destruct key as [|code name]; [exact I|]. destruct (rhs_meth code) as [m|] eqn:Em; [|exact I].
    cbn [notes]. intro s. destruct (dget (snames s) name) as [i|]; [|exact I].
    cbn [notes]. exists (map fst l). split; [reflexivity|].
    destruct (interruptible m) eqn:Ei; cbn [notes]; [apply IH|].
    apply notes_gseq; [now apply notes_start|apply IH].
Qed.

(** ** The order of actions *)

Lemma stage_key_rank key : key_rank key = match stage key with Some n => Ok n | None => Err (match key with "" => EIndex | _ => EActr end) end.
Proof.
  destruct key as [|c key]; [reflexivity|]. cbn [key_rank].
  unfold rank, stage. destruct c as [[] [] [] [] [] [] [] []]; reflexivity.
Qed.

Lemma isort_ext {A} (f g : A -> A -> bool) l : (forall a b, f a b = g a b) -> isort f l = isort g l.
Proof.
  intro H. induction l as [|a l IH]; [reflexivity|]. cbn [isort]. rewrite IH. clear IH.
  induction (isort g l) as [|b m IH]; [reflexivity|]. cbn [insert_sorted]. rewrite H, IH. reflexivity.
Qed.

Section Groups.
  Variable A : Type.
  Variable key : A -> Z.
  Let leb (a b : A) := (key a <=? key b)%Z.
  Definition group (k : Z) (l : list A) := filter (fun x => (key x =? k)%Z) l.

  Lemma group_none k l : Forall (fun x => (k < key x)%Z) l -> group k l = [].
  Proof.
    induction 1 as [|x l Hx Hl IH]; [reflexivity|]. unfold group in *. cbn.
    destruct (Z.eqb_spec (key x) k); [lia|exact IH].
  Qed.

  Fixpoint groups (k : Z) (n : nat) (l : list A) : list A :=
    match n with O => [] | S n' => (group k l ++ groups (k + 1) n' l)%list end.

  Lemma groups_cons_high a l n : forall k, (forall j, (k <= j < k + Z.of_nat n)%Z -> key a <> j) ->
    groups k n (a :: l) = groups k n l.
  Proof.
    induction n as [|n IH]; intros k H; [reflexivity|]. cbn [groups]. unfold group at 1. cbn.
    destruct (Z.eqb_spec (key a) k) as [E|E]; [exfalso; apply (H k); [lia|exact E]|].
    rewrite IH; [reflexivity|]. intros j Hj. apply H. lia.
  Qed.

  Lemma groups_empty n : forall k, groups k n [] = [].
  Proof. induction n as [|n IH]; intro k; [reflexivity|]. cbn. apply IH. Qed.

  Lemma groups_cons a l n : forall k,
    (k <= key a < k + Z.of_nat n)%Z -> Forall (fun b => (key a <= key b)%Z) l ->
    groups k n (a :: l) = a :: groups k n l.
  Proof.
    induction n as [|n IH]; intros k Hk Hl; [lia|]. cbn [groups]. unfold group at 1. cbn.
    destruct (Z.eqb_spec (key a) k) as [E|E].
    - cbn. f_equal. f_equal. apply groups_cons_high. intros j Hj. lia.
    - fold (group k l). rewrite (group_none k l).
      + cbn. apply IH; [lia|exact Hl].
      + eapply Forall_impl; [|exact Hl]. cbn. intros. lia.
  Qed.

  Lemma sorted_groups n : forall k l, sortedb leb l -> (forall a, In a l -> (k <= key a < k + Z.of_nat n)%Z) ->
    l = groups k n l.
  Proof.
    intros k l. induction l as [|a l IH]; intros Hs Hr; [now rewrite groups_empty|].
    cbn in Hs. destruct Hs as [Ha Hs]. rewrite groups_cons.
    - f_equal. apply IH; [exact Hs|]. intros b Hb. apply Hr. now right.
    - apply Hr. now left.
    - eapply Forall_impl; [|exact Ha]. cbn. unfold leb. intros b Hb. now apply Z.leb_le.
  Qed.
End Groups.

Lemma groups_perm_stable {A} (key : A -> Z) l n : forall k,
  groups A key k n (isort (fun a b => (key a <=? key b)%Z) l) = groups A key k n l.
Proof.
  induction n as [|n IH]; intro k; [reflexivity|]. cbn [groups]. unfold group. rewrite isort_stable, IH. reflexivity.
Qed.

Lemma rmap_rank rhs : forall l, rmap (fun p : string * content => n <- key_rank (fst p) ;; Ok (n, p)) rhs = Ok l ->
  map snd l = rhs /\ Forall (fun x => stage (fst (snd x)) = Some (fst x)) l.
Proof.
  induction rhs as [|[k c] rhs IH]; intros l H; cbn [rmap] in H.
  - inversion H. split; constructor.
  - cbn [fst] in H. rewrite stage_key_rank in H.
    destruct (stage k) as [n|] eqn:Es; cbn [rbind] in H; [|discriminate].
    destruct (rmap _ rhs) as [l'|] eqn:E; cbn [rbind] in H; [|discriminate]. inversion H; subst l.
    destruct (IH _ eq_refl) as [Hm Hf]. split; [cbn; now f_equal|]. constructor; [exact Es|exact Hf].
Qed.

Lemma stage_lt k n : stage k = Some n -> (n < 6)%nat.
Proof.
  unfold stage. destruct k as [|[[] [] [] [] [] [] [] []] k]; intro H; inversion H; lia.
Qed.

Lemma filter_map_comm {A B} (f : A -> B) (p : B -> bool) (q : A -> bool) l :
  (forall a, In a l -> p (f a) = q a) -> filter p (map f l) = map f (filter q l).
Proof.
  induction l as [|a l IH]; intro H; [reflexivity|]. cbn. rewrite H by now left.
  destruct (q a); cbn; [f_equal|]; apply IH; intros; apply H; now right.
Qed.

Lemma ordered_rhs_staged rhs l : ordered_rhs rhs = Ok l ->
  staged (dkeys rhs) (map fst l) /\ Permutation l rhs.
Proof.
  unfold ordered_rhs. intro H.
  destruct (rmap _ rhs) as [rk|] eqn:E; cbn [rbind] in H; [|discriminate]. inversion H; subst l. clear H.
  destruct (rmap_rank _ _ E) as [Hm Hf].
  set (key := fun a : nat * (string * content) => Z.of_nat (fst a)).
  assert (Hext : isort (fun a b : nat * (string * content) => Nat.leb (fst a) (fst b)) rk = isort (fun a b => (key a <=? key b)%Z) rk).
  { apply isort_ext. intros a b. unfold key. destruct (Nat.leb_spec (fst a) (fst b)), (Z.leb_spec (Z.of_nat (fst a)) (Z.of_nat (fst b))); auto; lia. }
  rewrite Hext. split; [|rewrite <- Hm; apply Permutation_map; apply isort_perm].
  assert (Hr : forall a, In a rk -> (0 <= key a < 0 + Z.of_nat 6)%Z).
  { intros a Ha. rewrite Forall_forall in Hf. apply Hf in Ha. apply stage_lt in Ha. unfold key. lia. }
  assert (Hs : isort (fun a b => (key a <=? key b)%Z) rk = groups _ key 0 6 rk).
  { rewrite <- groups_perm_stable. apply sorted_groups.
    - apply isort_sorted; intros; rewrite ?Z.leb_le in *; lia.
    - intros a Ha. apply Hr. eapply Permutation_in; [apply isort_perm|exact Ha]. }
  rewrite Hs. clear Hs Hext. unfold staged, dkeys. rewrite <- Hm.
  assert (Hin : forall n, in_stage n (map fst (map snd rk)) = map fst (map snd (group _ key (Z.of_nat n) rk))).
  { intro n. unfold in_stage, group. rewrite !map_map.
    rewrite (filter_map_comm (fun x => fst (snd x)) _ (fun x => (key x =? Z.of_nat n)%Z)); [reflexivity|].
    intros a Ha. rewrite Forall_forall in Hf. rewrite (Hf _ Ha). unfold key.
    destruct (Nat.eqb_spec (fst a) n), (Z.eqb_spec (Z.of_nat (fst a)) (Z.of_nat n)); auto; lia. }
  rewrite !Hin. cbn [groups]. rewrite app_nil_r. rewrite !map_app. reflexivity.
Qed.

Lemma rmap_rank_bad rhs : (exists k, In k (dkeys rhs) /\ stage k = None) ->
  exists e, rmap (fun p : string * content => n <- key_rank (fst p) ;; Ok (n, p)) rhs = Err e /\
    ((forall k, In k (dkeys rhs) -> k <> "") -> e = EActr).
Proof.
  induction rhs as [|[k c] rhs IH]; intros (k0 & Hin & Hs); [destruct Hin|].
  cbn [rmap fst]. rewrite stage_key_rank. destruct (stage k) as [n|] eqn:Es; cbn [rbind].
  - destruct Hin as [<-|Hin]; [cbn in Hs; congruence|].
    destruct IH as (e & -> & He); [eauto|]. cbn [rbind]. exists e. split; [reflexivity|].
    intro H. apply He. intros k' Hk'. apply H. now right.
  - eexists. split; [reflexivity|]. intro H. destruct k; [exfalso; apply (H ""); [now left|reflexivity]|reflexivity].
Qed.

Lemma update_bad_sign O rhs t s : (exists k, In k (dkeys rhs) /\ stage k = None) -> (forall k, In k (dkeys rhs) -> k <> "") ->
  resume (g_update O rhs t) s = (s, [], ORaise EActr).
Proof.
  intros Hb Hn. destruct (rmap_rank_bad _ Hb) as (e & He & Hee). cbn. unfold ordered_rhs. rewrite He. cbn.
  rewrite (Hee Hn). reflexivity.
Qed.

Lemma update_notes O rhs t l : ordered_rhs rhs = Ok l -> notes (g_update O rhs t) (map fst l).
Proof. intros H s. rewrite H. apply notes_actions. Qed.

Theorem update_runs R O rhs t s tr f : (forall k, In k (dkeys rhs) -> stage k <> None) ->
  runs R (g_update O rhs t) s tr f ->
  exists all rest, staged (dkeys rhs) all /\ Permutation all (dkeys rhs) /\ all = (started tr ++ rest)%list /\
    (f = FDone -> rest = []) /\ Forall quiet (events tr).
Proof.
  intros Hk Hr.
  assert (Ho : exists l, ordered_rhs rhs = Ok l).
  { unfold ordered_rhs.
    assert (He : exists rk, rmap (fun p : string * content => n <- key_rank (fst p) ;; Ok (n, p)) rhs = Ok rk).
    { clear Hr. induction rhs as [|[k c] rhs IH]; [cbn; eauto|]. cbn [rmap fst]. rewrite stage_key_rank.
      destruct (stage k) as [n|] eqn:Es; [|exfalso; apply (Hk k); [now left|exact Es]]. cbn [rbind].
      destruct IH as [rk ->]; [intros; apply Hk; now right|]. cbn. eauto. }
    destruct He as [rk ->]. cbn. eauto. }
  destruct Ho as [l Ho]. destruct (ordered_rhs_staged _ _ Ho) as [Hst Hp].
  destruct (notes_runs _ _ _ _ _ Hr _ (update_notes O rhs t l Ho)) as (rest & El & Hd & _ & Hq).
  exists (map fst l), rest. repeat split; auto. now apply Permutation_map.
Qed.
