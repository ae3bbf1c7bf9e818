(** Proofs about the environment process. *)
From Coq Require Import Lia.
From Verif Require Import Base BaseFacts Chunks RoundFacts Buffers Productions ProdSpec Environment EnvSpec Sim SimSpec LearnFacts.
Local Open Scope string_scope.
Local Open Scope list_scope.
Local Open Scope nat_scope.

Lemma all_some_spec {A} (l : list (option A)) r : all_some l = Some r <-> l = map Some r.
Proof.
  revert r; induction l as [|[a|] l IH]; intros r; cbn [all_some].
  - split; [intros [= <-]; reflexivity|]. destruct r; [reflexivity|discriminate].
  - destruct (all_some l) as [r'|] eqn:E.
    + split; [intros [= <-]; cbn; f_equal; apply IH; reflexivity|].
      destruct r as [|b r]; [discriminate|]. cbn. intros [= <- H]. apply IH in H. congruence.
    + split; [discriminate|]. destruct r as [|b r]; [discriminate|]. cbn. intros [= <- H]. apply IH in H. discriminate.
  - split; [discriminate|]. destruct r; discriminate.
Qed.
Lemma all_some_In {A} (l : list (option A)) : (exists r, all_some l = Some r) <-> ~ In None l.
Proof.
  split.
  - intros (r & H) I. apply all_some_spec in H. subst. apply in_map_iff in I. destruct I as (x & H & _). discriminate.
  - induction l as [|[a|] l IH]; cbn [all_some In]; intro H; [eauto| |tauto].
    destruct IH as (r & ->); [tauto|eauto].
Qed.

Lemma stim_objects_spec x objs : stim_objects x = Ok objs <-> shows x objs.
Proof.
  destruct x as [d|x]; cbn [stim_objects shows].
  - destruct (all_some (map snd d)) as [l|] eqn:E.
    + rewrite <- all_some_spec, E. split; congruence.
    + rewrite <- all_some_spec, E. split; discriminate.
  - split; [intros [= <-]; reflexivity|intros ->; reflexivity].
Qed.
Lemma stim_objects_err x e : stim_objects x = Err e -> e = EActr.
Proof. destruct x as [d|]; cbn; [destruct (all_some _)|]; congruence. Qed.
Lemma trigger_set_spec t keys : trigger_set t = Ok keys -> forall k, In k keys <-> presses t k.
Proof.
  destruct t as [s|l|]; cbn [trigger_set presses]; [|destruct (all_some l) as [l'|] eqn:E|]; intros H k; try discriminate.
  - destruct (String.eqb_spec (upper s) "SPACE") as [U|U]; injection H as <-.
    + cbn. intuition congruence.
    + rewrite sdedup_In, in_map_iff. split; [intros (c & <- & I); eauto|intros [?|(_ & c & I & ->)]; [tauto|eauto]].
  - injection H as <-. apply all_some_spec in E. subst. rewrite sdedup_In, in_map_iff. split.
    + intros (x & <- & I). exists x. split; [apply in_map; exact I|reflexivity].
    + intros (x & I & ->). apply in_map_iff in I. destruct I as (y & [= ->] & I). eauto.
Qed.
Lemma trigger_set_ok t : (exists keys, trigger_set t = Ok keys) <-> good_trig t.
Proof.
  destruct t as [s|l|]; cbn [trigger_set good_trig].
  - destruct (String.eqb (upper s) "SPACE"); split; eauto.
  - rewrite <- all_some_In. destruct (all_some l) as [l'|]; split; eauto; [intros (? & ?)|intros (? & ?)]; discriminate.
  - split; [intros (? & ?); discriminate|tauto].
Qed.
Lemma trigger_set_err t e : trigger_set t = Err e -> e = EActr.
Proof. destruct t as [s|l|]; cbn; [destruct (String.eqb _ _)|destruct (all_some _)|]; congruence. Qed.

Lemma rmap_length {A B} (f : A -> res B) l r : rmap f l = Ok r -> List.length r = List.length l.
Proof.
  revert r; induction l as [|a l IH]; cbn [rmap rbind]; intros r H; [injection H as <-; reflexivity|].
  destruct (f a); [|discriminate]. cbn [rbind] in H. destruct (rmap f l); [|discriminate]. cbn [rbind] in H. injection H as <-. cbn. f_equal; auto.
Qed.
Lemma rmap_nth {A B} (f : A -> res B) l r : rmap f l = Ok r -> forall i b, nth_error r i = Some b -> exists a, nth_error l i = Some a /\ f a = Ok b.
Proof.
  revert r; induction l as [|a l IH]; cbn [rmap rbind]; intros r H; [injection H as <-; intros [|i]; discriminate|].
  destruct (f a) as [b|] eqn:E; [|discriminate]. cbn [rbind] in H. destruct (rmap f l) as [r'|] eqn:E'; [|discriminate]. cbn [rbind] in H. injection H as <-.
  intros [|i] b'; cbn; [intros [= <-]; eauto|apply IH; reflexivity].
Qed.
Lemma rmap_ok {A B} (f : A -> res B) l : (exists r, rmap f l = Ok r) <-> Forall (fun a => exists b, f a = Ok b) l.
Proof.
  induction l as [|a l IH]; cbn [rmap rbind]; [split; eauto|].
  split.
  - intros (r & H). destruct (f a) eqn:E; [|discriminate]. cbn [rbind] in H. destruct (rmap f l); [|discriminate]. constructor; [eauto|]. apply IH. eauto.
  - intro H. inversion H as [|? ? (b & E) F]; subst. apply IH in F. destruct F as (r & ->). rewrite E. cbn [rbind]. eauto.
Qed.
Lemma rmap_err {A B} (f : A -> res B) l e : (forall a e, f a = Err e -> e = EActr) -> rmap f l = Err e -> e = EActr.
Proof.
  intro F. revert e; induction l as [|a l IH]; cbn [rmap rbind]; intros e H; [discriminate|].
  destruct (f a) eqn:E; cbn [rbind] in H; [|injection H as <-; eauto]. destruct (rmap f l); cbn [rbind] in H; [discriminate|]. injection H as <-. eauto.
Qed.

Lemma repeat_one {A} (x : A) n : repeat_list [x] n = repeat x n.
Proof. induction n as [|n IH]; cbn; congruence. Qed.
Lemma nth_repeat {A} (x : A) n i : i < n -> nth_error (repeat x n) i = Some x.
Proof. revert i; induction n as [|n IH]; intros i H; [lia|]. destruct i; cbn; [reflexivity|]. apply IH. lia. Qed.
Lemma pick_self {A} (l : list A) i : i < List.length l -> pick l i = nth_error l i.
Proof. destruct l as [|x [|y l]]; cbn [pick]; auto. cbn. intro H. assert (i = 0) by lia. subst. reflexivity. Qed.
Lemma repeat_nth {A} (l : list A) n : List.length l = 1 -> List.length (repeat_list l n) = n /\ forall i, i < n -> nth_error (repeat_list l n) i = pick l i.
Proof.
  destruct l as [|x [|y l]]; try discriminate. intros _. rewrite repeat_one, repeat_length. split; [reflexivity|]. intros i H. rewrite nth_repeat by exact H. reflexivity.
Qed.

Lemma prepare_ok stims trigs times objs ks ts : prepare stims trigs times = Ok (objs, ks, ts) ->
  exists n, accepted stims trigs times n /\ List.length objs = n /\ List.length ks = n /\ List.length ts = n /\
    forall i, i < n ->
      (exists x o, pick stims i = Some x /\ nth_error objs i = Some o /\ shows x o) /\
      (exists t k, pick trigs i = Some t /\ nth_error ks i = Some k /\ forall y, In y k <-> presses t y) /\
      (exists q, pick times i = Some q /\ nth_error ts i = Some q).
Proof.
  unfold prepare. destruct (rmap stim_objects stims) as [os|] eqn:Eo; [|discriminate]. cbn [rbind].
  assert (Lo := rmap_length _ _ _ Eo). assert (No := rmap_nth _ _ _ Eo).
  assert (Go : Forall good_stim stims).
  { assert (X : exists r, rmap stim_objects stims = Ok r) by eauto. apply rmap_ok in X. apply Forall_forall. intros x I. rewrite Forall_forall in X.
    destruct (X x I) as (o & H). exists o. apply stim_objects_spec. exact H. }
  destruct (balance os trigs) as [[os' tr']|] eqn:Eb; [|discriminate]. cbn [rbind fst snd].
  destruct (fit (List.length os') times) as [ts'|] eqn:Ef; [|discriminate]. cbn [rbind].
  destruct (rmap trigger_set tr') as [ks'|] eqn:Ek; [|discriminate]. cbn [rbind].
  intros [= <- <- <-]. assert (Lk := rmap_length _ _ _ Ek). assert (Nk := rmap_nth _ _ _ Ek).
  assert (Gk : Forall (fun a => exists b, trigger_set a = Ok b) tr') by (apply rmap_ok; eauto).
  assert (Hb : let n := List.length os' in List.length tr' = n /\
     (List.length os = List.length trigs /\ n = List.length os \/ List.length os = 1 /\ n = List.length trigs \/ List.length trigs = 1 /\ n = List.length os) /\
     (forall i, i < n -> nth_error os' i = pick os i) /\ (forall i, i < n -> nth_error tr' i = pick trigs i)).
  { revert Eb. unfold balance. destruct (Nat.eqb_spec (List.length os) (List.length trigs)) as [E|E].
    - intros [= <- <-]. cbn. split; [congruence|]. split; [auto|]. split; intros i H; symmetry; apply pick_self; lia.
    - destruct (Nat.eqb_spec (List.length os) 1) as [E1|E1].
      + intros [= <- <-]. destruct (repeat_nth os (List.length trigs) E1) as (L & N). cbn. rewrite L. repeat split; auto.
        intros i H. symmetry. apply pick_self. exact H.
      + destruct (Nat.eqb_spec (List.length trigs) 1) as [E2|E2]; [|discriminate].
        intros [= <- <-]. destruct (repeat_nth trigs (List.length os) E2) as (L & N). cbn. repeat split; auto. intros i H. symmetry. apply pick_self. exact H. }
  cbv zeta in Hb. destruct Hb as (Ltr & Hn & Nos & Ntr).
  assert (Ht : List.length ts' = List.length os' /\ (List.length times = List.length os' \/ List.length times = 1) /\ forall i, i < List.length os' -> nth_error ts' i = pick times i).
  { revert Ef. unfold fit. destruct (Nat.eqb_spec (List.length os') (List.length times)) as [E|E].
    - intros [= <-]. repeat split; auto. intros i H. symmetry. apply pick_self. lia.
    - destruct (Nat.eqb_spec (List.length times) 1) as [E1|E1]; [|discriminate]. intros [= <-]. destruct (repeat_nth times (List.length os') E1) as (L & N). repeat split; auto. }
  destruct Ht as (Lts & Htl & Nts).
  exists (List.length os'). split; [|split; [reflexivity|]; split; [lia|]; split; [exact Lts|]].
  - split; [split; [rewrite <- Lo; exact Hn|exact Htl]|]. split; [exact Go|].
    destruct (List.length os') as [|m] eqn:Em; [left; reflexivity|right].
    apply Forall_forall. intros t I. apply trigger_set_ok. rewrite Forall_forall in Gk.
    apply In_nth_error in I. destruct I as (j & Hj).
    assert (Jl : j < List.length trigs) by (apply nth_error_Some; congruence).
    destruct Hn as [(E & E')|[(E & E')|(E & E')]].
    + apply Gk. apply nth_error_In with j. rewrite Ntr by lia. rewrite pick_self by lia. exact Hj.
    + apply Gk. apply nth_error_In with j. rewrite Ntr by lia. rewrite pick_self by lia. exact Hj.
    + apply Gk. apply nth_error_In with 0. rewrite Ntr by lia. rewrite pick_self by lia. assert (j = 0) by lia. subst. exact Hj.
  - intros i Hi. repeat split.
    + destruct (nth_error os' i) as [o|] eqn:E; [|apply nth_error_None in E; lia].
      rewrite Nos in E by exact Hi.
      assert (exists x, pick stims i = Some x /\ shows x o) as (x & Hx & Sx).
      { destruct (Nat.eq_dec (List.length stims) 1) as [L1|L1].
        - destruct stims as [|x [|? ?]]; try discriminate. destruct os as [|o' [|? ?]]; try discriminate. cbn [pick] in E. injection E as ->.
          destruct (No 0 o eq_refl) as (a & [= <-] & F). exists x. split; [reflexivity|]. apply stim_objects_spec. exact F.
        - assert (Il : i < List.length os).
          { destruct os as [|? [|? ?]]; cbn [pick] in E; [apply nth_error_Some; congruence|cbn in Lo; lia|apply nth_error_Some; congruence]. }
          rewrite pick_self in E by exact Il. destruct (No i o E) as (a & Ha & F). exists a. rewrite pick_self by lia. split; [exact Ha|]. apply stim_objects_spec. exact F. }
      exists x, o. auto.
    + destruct (nth_error ks' i) as [k|] eqn:E; [|apply nth_error_None in E; lia].
      destruct (Nk i k E) as (t & Ht & F). rewrite Ntr in Ht by exact Hi. exists t, k. repeat split; auto; apply trigger_set_spec; exact F.
    + destruct (nth_error ts' i) as [q|] eqn:E; [|apply nth_error_None in E; lia]. exists q. split; [rewrite <- Nts by exact Hi; exact E|reflexivity].
Qed.

Lemma prepare_accepts stims trigs times n : accepted stims trigs times n -> exists r, prepare stims trigs times = Ok r.
Proof.
  intros ((Hl & Ht) & Gs & Gt). unfold prepare.
  assert (X : exists os, rmap stim_objects stims = Ok os).
  { apply rmap_ok. apply Forall_forall. intros x I. rewrite Forall_forall in Gs. destruct (Gs x I) as (o & H). exists o. apply stim_objects_spec. exact H. }
  destruct X as (os & Eo). rewrite Eo. cbn [rbind]. assert (Lo := rmap_length _ _ _ Eo).
  assert (X : exists os' tr', balance os trigs = Ok (os', tr') /\ List.length os' = n /\ List.length tr' = n /\ forall t, In t tr' -> In t trigs).
  { unfold balance. destruct (Nat.eqb_spec (List.length os) (List.length trigs)) as [E|E].
    - exists os, trigs. repeat split; auto; lia.
    - destruct (Nat.eqb_spec (List.length os) 1) as [E1|E1].
      + exists (repeat_list os (List.length trigs)), trigs. destruct (repeat_nth os (List.length trigs) E1) as (L & _). repeat split; auto; lia.
      + destruct (Nat.eqb_spec (List.length trigs) 1) as [E2|E2]; [|lia].
        exists os, (repeat_list trigs (List.length os)). destruct (repeat_nth trigs (List.length os) E2) as (L & _). repeat split; try lia.
        destruct trigs as [|t0 [|? ?]]; try discriminate. rewrite repeat_one. intros t I. apply repeat_spec in I. subst. left. reflexivity. }
  destruct X as (os' & tr' & -> & L1 & L2 & I). cbn [rbind fst snd].
  assert (X : exists ts, fit (List.length os') times = Ok ts).
  { unfold fit. destruct (Nat.eqb_spec (List.length os') (List.length times)); [eauto|]. destruct (Nat.eqb_spec (List.length times) 1); [eauto|lia]. }
  destruct X as (ts & ->). cbn [rbind].
  assert (X : exists ks, rmap trigger_set tr' = Ok ks).
  { apply rmap_ok. apply Forall_forall. intros t It. apply trigger_set_ok. destruct Gt as [->|Gt]; [destruct tr'; [destruct It|discriminate]|].
    rewrite Forall_forall in Gt. auto. }
  destruct X as (ks & ->). cbn [rbind]. eauto.
Qed.
Lemma prepare_err stims trigs times e : prepare stims trigs times = Err e -> e = EActr.
Proof.
  unfold prepare. destruct (rmap stim_objects stims) as [os|e0] eqn:Eo; cbn [rbind].
  2:{ intros [= <-]. eapply rmap_err; [exact stim_objects_err|exact Eo]. }
  destruct (balance os trigs) as [[os' tr']|e0] eqn:Eb; cbn [rbind fst snd].
  2:{ intros [= <-]. revert Eb. unfold balance. destruct (Nat.eqb _ _); [discriminate|]. destruct (Nat.eqb _ _); [discriminate|]. destruct (Nat.eqb _ _); congruence. }
  destruct (fit (List.length os') times) as [ts'|e0] eqn:Ef; cbn [rbind].
  2:{ intros [= <-]. revert Ef. unfold fit. destruct (Nat.eqb _ _); [discriminate|]. destruct (Nat.eqb _ _); congruence. }
  destruct (rmap trigger_set tr') as [ks'|e0] eqn:Ek; cbn [rbind]; [discriminate|].
  intros [= <-]. eapply rmap_err; [exact trigger_set_err|exact Ek].
Qed.

(** ** Runs *)

Lemma screens_runs R stims trigs times begin n : forall m objs ks ts s tr f t,
  runs R (screens t objs ks ts) s tr f -> m <= n -> (t == begin + elapsed times m)%Q ->
  List.length objs = n - m -> List.length ks = n - m -> List.length ts = n - m ->
  (forall i, i < n - m ->
      (exists x o, pick stims (m + i) = Some x /\ nth_error objs i = Some o /\ shows x o) /\
      (exists t k, pick trigs (m + i) = Some t /\ nth_error ks i = Some k /\ forall y, In y k <-> presses t y) /\
      (exists q, pick times (m + i) = Some q /\ nth_error ts i = Some q)) ->
  (f = FCut \/ f = FDone /\ List.length (events tr) = n - m) /\
  forall i h, nth_error tr i = Some h -> screen_step begin stims trigs times (S (m + i)) h.
Proof.
  intros m objs; revert m. induction objs as [|o objs IH]; intros m ks ts s tr f t H Hm Et L1 L2 L3 N.
  - cbn [screens] in H. inversion H as [|g s1 s' ns E|g s1 s' ns e E|g s1 s' ns k E|g s1 s' ns e k s'' tr' f' E r H']; subst; try discriminate.
    + split; [left; reflexivity|]. intros [|i]; discriminate.
    + cbn in E. injection E as <- <-. split; [right; split; [reflexivity|]; cbn in *; lia|].
      intros [|[|i]] h Hh; try discriminate. injection Hh as <-. reflexivity.
  - cbn in L1. destruct ks as [|k ks]; [cbn in L2; lia|]. destruct ts as [|q ts]; [cbn in L3; lia|]. cbn in L2, L3. cbn [screens] in H.
    destruct (N 0) as ((x & o' & Px & [= <-] & Sx) & (tg & k' & Pt & [= <-] & St) & (q' & Pq & [= <-])); [lia|]. rewrite Nat.add_0_r in *.
    assert (Et' : (t + q == begin + elapsed times (S m))%Q) by (cbn [elapsed]; rewrite Pq, Et; symmetry; apply Qplus_assoc).
    inversion H as [|g s1 s' ns E|g s1 s' ns e E|g s1 s' ns k1 E|g s1 s' ns e k1 s'' tr' f' E r H']; subst; try discriminate.
    + split; [left; reflexivity|]. intros [|i]; discriminate.
    + cbn in E. injection E as <- <- <- <-.
      destruct (IH (S m) ks ts s'' tr' f _ H' ltac:(lia) Et' ltac:(lia) ltac:(lia) ltac:(lia)) as (F & G).
      { intros i Hi. destruct (N (S i)) as (A & B & C); [lia|]. rewrite Nat.add_succ_r in *. auto. }
      split.
      * destruct F as [->|(-> & F)]; [left; reflexivity|right; split; [reflexivity|]]. cbn. unfold events in F. lia.
      * intros [|i] h Hh; cbn [nth_error] in Hh.
        -- injection Hh as <-. rewrite Nat.add_0_r. unfold screen_step; cbn [hevent hafter hbefore ev etime eproc ewhat].
           split; [apply roundtime_ext; exact Et'|]. split; [reflexivity|]. split; [reflexivity|]. exists x, tg, o, k. auto.
        -- rewrite Nat.add_succ_r. apply (G i h Hh).
Qed.

Theorem env_runs R initial stims trigs times start n s tr f :
  accepted (as_list stims) (as_list trigs) (as_list times) n ->
  runs R (env_process initial stims trigs times start) s tr f ->
  (f = FCut \/ f = FDone /\ List.length (events tr) = S n) /\
  forall i h, nth_error tr i = Some h -> screen_step (initial - start) (as_list stims) (as_list trigs) (as_list times) i h.
Proof.
  intros A H. destruct (prepare_accepts _ _ _ _ A) as (((objs & ks) & ts) & E). unfold env_process in H. rewrite E in H.
  destruct (prepare_ok _ _ _ _ _ _ E) as (n' & A' & L1 & L2 & L3 & N).
  assert (n' = n) as ->. { destruct A as ((A & A0) & _), A' as ((A' & A0') & _). lia. }
  inversion H as [|g s1 s' ns E1|g s1 s' ns e E1|g s1 s' ns k E1|g s1 s' ns e k s'' tr' f' E1 r H']; subst; try discriminate.
  - split; [left; reflexivity|]. intros [|i]; discriminate.
  - cbn in E1. injection E1 as <- <- <- <-.
    destruct (screens_runs R (as_list stims) (as_list trigs) (as_list times) (initial - start)%Q (List.length ts) 0 objs ks ts s'' tr' f _ H') as (F & G);
      [lia|cbn [elapsed]; ring|lia|lia|lia|rewrite Nat.sub_0_r; exact N|].
    rewrite Nat.sub_0_r in F.
    split.
    + destruct F as [->|(-> & F)]; [left; reflexivity|right; split; [reflexivity|]]. cbn. unfold events in F. lia.
    + intros [|i] h Hh; cbn [nth_error] in Hh; [|apply (G i h Hh)].
      injection Hh as <-. unfold screen_step; cbn [hevent hafter hbefore ev etime eproc ewhat].
      split; [apply roundtime_ext; cbn [elapsed]; ring|]. auto.
Qed.

Theorem env_rejects R initial stims trigs times start s tr f :
  ~ (exists n, accepted (as_list stims) (as_list trigs) (as_list times) n) ->
  runs R (env_process initial stims trigs times start) s tr f ->
  events tr = [] /\ (f = FCut \/ f = FRaise EActr).
Proof.
  intros A H. unfold env_process in H. destruct (prepare _ _ _) as [((objs & ks) & ts)|e] eqn:E.
  - destruct (prepare_ok _ _ _ _ _ _ E) as (n' & A' & _). exfalso. eauto.
  - apply prepare_err in E. subst. inversion H as [|g s1 s' ns E1|g s1 s' ns e E1|g s1 s' ns k E1|g s1 s' ns e k s'' tr' f' E1 r H']; subst; try discriminate; [auto|].
    cbn in E1. injection E1 as <- <- <-. auto.
Qed.

(** ** In a simulation *)

Lemma outside_screens : forall objs ks ts t, outside (screens t objs ks ts).
Proof.
  induction objs as [|o objs IH]; intros ks ts t; cbn [screens]; [exact I|].
  destruct ts as [|q ts]; [exact I|]. destruct ks as [|k ks]; [exact I|]. cbn [outside]. split; [|split; [reflexivity|apply IH]].
  intro s. repeat split.
Qed.
Theorem outside_env initial stims trigs times start : outside (env_process initial stims trigs times start).
Proof. unfold env_process. destruct (prepare _ _ _) as [((objs & ks) & ts)|e]; [|exact I]. split; [reflexivity|apply outside_screens]. Qed.

(** ** Consequences *)

Theorem env_default_rejected R initial stims times start s tr f : as_list stims <> [] ->
  runs R (env_process initial stims (AOne TrBad) times start) s tr f -> events tr = [] /\ (f = FCut \/ f = FRaise EActr).
Proof.
  intros N H. apply env_rejects in H; [exact H|]. intros (n & (A & _) & _ & B). cbn in A. destruct B as [->|B].
  - destruct (as_list stims); [congruence|]. cbn in A. lia.
  - inversion B as [|? ? X]; subst. exact X.
Qed.
Theorem env_empty_trigger R initial stims times start n s tr f i h e :
  accepted (as_list stims) [TrText ""] (as_list times) n ->
  runs R (env_process initial stims (AOne (TrText "")) times start) s tr f ->
  nth_error tr (S i) = Some h -> hevent h = Some e -> xtrig (sscreen (hafter h)) = [].
Proof.
  intros A H Hh He. destruct (env_runs R initial stims (AOne (TrText "")) times start n s tr f A H) as (_ & G).
  specialize (G _ _ Hh). unfold screen_step in G. rewrite He in G. destruct G as (_ & _ & _ & x & t & objs & keys & _ & Pt & _ & K & E).
  cbn in Pt. injection Pt as <-. rewrite E. cbn. destruct keys as [|k keys]; [reflexivity|].
  assert (X : presses (TrText "") k) by (apply K; left; reflexivity). cbn in X. destruct X as [(X & _)|(_ & c & [] & _)]. discriminate.
Qed.
Theorem env_differences R initial stims trigs times start n s tr f i h h' e e' q :
  accepted (as_list stims) (as_list trigs) (as_list times) n ->
  runs R (env_process initial stims trigs times start) s tr f ->
  nth_error tr i = Some h -> nth_error tr (S i) = Some h' -> hevent h = Some e -> hevent h' = Some e' ->
  pick (as_list times) i = Some q ->
  exists x, etime e = roundtime x /\ etime e' = roundtime (x + q).
Proof.
  intros A H Hh Hh' He He' Hq. destruct (env_runs _ _ _ _ _ _ _ _ _ _ A H) as (_ & G).
  assert (G1 := G _ _ Hh). assert (G2 := G _ _ Hh'). unfold screen_step in G1, G2. rewrite He in G1. rewrite He' in G2.
  destruct G1 as (G1 & _), G2 as (G2 & _). eexists. split; [exact G1|]. rewrite G2. apply roundtime_ext. cbn [elapsed]. rewrite Hq. ring.
Qed.
Theorem env_start R initial stims trigs times n s h tr f e :
  accepted (as_list stims) (as_list trigs) (as_list times) n ->
  runs R (env_process initial stims trigs times 0) s (h :: tr) f -> hevent h = Some e -> etime e = roundtime initial.
Proof.
  intros A H He. destruct (env_runs _ _ _ _ _ _ _ _ _ _ A H) as (_ & G). specialize (G 0 h eq_refl). unfold screen_step in G. rewrite He in G.
  destruct G as (G & _). rewrite G. apply roundtime_ext. cbn [elapsed]. ring.
Qed.
