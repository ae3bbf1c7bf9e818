(** Facts about modules that work. *)
From Verif Require Import Base BaseFacts Chunks DecMem Buffers BufferFacts Productions ProdSpec ProdFacts CycleFacts BusySpec.
Local Open Scope string_scope.
Local Open Scope list_scope.

Section Busy.
Variable i : nat.
Variable a : string.
Local Notation on := (shows i a "busy").

(** [okb b t g]: the generator [g], started at the time [t], waits only while [a] is busy, if [a] is busy at the
    start or [b] is false. *)
Inductive okb : bool -> Z -> gen -> Prop :=
| o_ret b t : okb b t GRet
| o_raise b t e : okb b t (GRaise e)
| o_cont b t k : (forall t', okb b t' k) -> okb b t (GCont k)
| o_yield b t e k : etime e = t \/ b = true -> okb b (etime e) k -> okb b t (GYield e k)
| o_note b t n k : okb b t k -> okb b t (GNote n k)
| o_keep b t f k : (forall s, module_at i s -> module_at i (f s)) -> (forall s, on s -> on (f s)) -> okb b t k -> okb b t (GAct f k)
| o_busy b t f k : (forall s, module_at i s -> module_at i (f s)) -> (forall s, module_at i s -> on (f s)) -> okb true t k -> okb b t (GAct f k)
| o_free b t f k : (forall s, module_at i s -> module_at i (f s)) -> okb false t k -> okb b t (GAct f k)
| o_get b t k : (forall s, okb b t (k s)) -> okb b t (GGet k).

Lemma okb_resume b t g : okb b t g -> forall s s' ns o, module_at i s -> (b = true -> on s) -> resume g s = (s', ns, o) ->
  module_at i s' /\
  match o with
  | OYield e k => (etime e = t \/ on s') /\ exists b', okb b' (etime e) k /\ (b' = true -> on s')
  | OCont k => exists b', (forall t', okb b' t' k) /\ (b' = true -> on s')
  | _ => True
  end.
Proof.
  intros H. induction H as [b t|b t e|b t k Hk IH|b t e k Ht Hk IH|b t n k Hk IH|b t f k M K Hk IH|b t f k M K Hk IH|b t f k M Hk IH|b t k Hk IH];
    intros s s' ns o Hm Hb E; cbn [resume] in E.
  - injection E as <- <- <-. auto.
  - injection E as <- <- <-. auto.
  - injection E as <- <- <-. split; [exact Hm|]. exists b. auto.
  - injection E as <- <- <-. split; [exact Hm|]. split; [destruct Ht; auto|]. exists b. auto.
  - destruct (resume k s) as [[s1 n1] o1] eqn:E1. injection E as <- <- <-. exact (IH _ _ _ _ Hm Hb E1).
  - apply (IH (f s) s' ns o); auto.
  - apply (IH (f s) s' ns o); auto.
  - apply (IH (f s) s' ns o); auto. discriminate.
  - exact (IH s _ _ _ _ Hm Hb E).
Qed.
Definition all_waits (t : Z) (g : gen) (s : st) : Prop := forall tr f, runs (untouched i) g s tr f -> waits_busy i a t tr /\
  forall l h k s' tr' f', tr = l ++ [h] -> f = FCont k -> untouched i (hafter h) s' -> runs (untouched i) k s' tr' f' -> waits_busy i a (last_time t tr) tr'.
Lemma okb_waits : forall g s tr f, runs (untouched i) g s tr f -> forall b t, okb b t g -> module_at i s -> (b = true -> on s) -> waits_busy i a t tr /\
  forall l h k, tr = l ++ [h] -> f = FCont k -> exists b', (forall t', okb b' t' k) /\ module_at i (hafter h) /\ (b' = true -> on (hafter h)).
Proof.
  intros g s tr f H. induction H as [g s|g s s' ns E|g s s' ns e E|g s s' ns k E|g s s' ns e k s'' tr f E HR Hr IH]; intros b t Ho Hm Hb.
  - split; [exact I|discriminate].
  - split; [exact I|discriminate].
  - split; [exact I|discriminate].
  - destruct (okb_resume _ _ _ Ho _ _ _ _ Hm Hb E) as (M & b' & K & B). split; [exact I|]. intros l h k' El [= <-]. apply (app_inj_tail [] l) in El. destruct El as [_ <-]. exists b'. auto.
  - destruct (okb_resume _ _ _ Ho _ _ _ _ Hm Hb E) as (M & W & b' & K & B).
    assert (M2 : module_at i s'') by (unfold module_at; rewrite HR; exact M).
    assert (B2 : b' = true -> on s'') by (intros Eb; destruct (B Eb) as (m & X & Y); exists m; split; [rewrite HR; exact X|exact Y]).
    destruct (IH _ _ K M2 B2) as (W2 & C). split; [cbn [waits_busy hevent hafter]; auto|]. intros l h k' El Ek. destruct l as [|h0 l].
    + injection El as _ Et. subst tr f. inversion Hr.
    + injection El as _ Et. exact (C l h k' Et Ek).
Qed.
Lemma okb_all b t g s : okb b t g -> module_at i s -> (b = true -> on s) -> all_waits t g s.
Proof.
  intros Ho Hm Hb tr f Hr. destruct (okb_waits _ _ _ _ Hr _ _ Ho Hm Hb) as (W & C). split; [exact W|].
  intros l h k s' tr' f' El Ek HU Hr'. destruct (C l h k El Ek) as (b' & K & M & B).
  assert (M2 : module_at i s') by (unfold module_at; rewrite HU; exact M).
  assert (B2 : b' = true -> on s') by (intros Eb; destruct (B Eb) as (m & X & Y); exists m; split; [rewrite HU; exact X|exact Y]).
  exact (proj1 (okb_waits _ _ _ _ Hr' _ _ (K _) M2 B2)).
Qed.

(** ** Changes of the state *)
Lemma same_mods (f : st -> st) : (forall s, smods (f s) = smods s) -> (forall s, module_at i s -> module_at i (f s)) /\ (forall s, on s -> on (f s)).
Proof. intros E. split; intros s; unfold module_at, shows; rewrite E; auto. Qed.
Lemma at_upd s m m' : nth_error (smods s) i = Some m -> nth_error (smods (set_mods (upd (smods s) i m') s)) i = Some m'.
Proof. intros E. cbn [smods set_mods]. apply (upd_same _ _ _ _ E). Qed.
Lemma attrs_module l s : module_at i s -> module_at i (set_attrs i l s).
Proof. unfold module_at, set_attrs. intros H. destruct (nth_error (smods s) i) as [m|] eqn:E; [|elim H; reflexivity]. rewrite (at_upd _ _ _ E). discriminate. Qed.
Lemma attrs_busy l s : (forall d, dget (dupdate d l) a = Some "busy") -> module_at i s -> on (set_attrs i l s).
Proof. unfold module_at, set_attrs. intros D H. destruct (nth_error (smods s) i) as [m|] eqn:E; [|elim H; reflexivity]. eexists. split; [apply (at_upd _ _ _ E)|]. apply D. Qed.
Lemma attrs_keep l s : (forall d, dget (dupdate d l) a = dget d a) -> on s -> on (set_attrs i l s).
Proof. intros D (m & E & B). unfold set_attrs. rewrite E. eexists. split; [apply (at_upd _ _ _ E)|]. cbn [mattr]. rewrite D. exact B. Qed.
Lemma mod_keep (f : modst -> modst) (F : st -> st) : (forall m, mattr (f m) = mattr m) -> (forall s, F s = match nth_error (smods s) i with Some m => set_mods (upd (smods s) i (f m)) s | None => s end) ->
  (forall s, module_at i s -> module_at i (F s)) /\ (forall s, on s -> on (F s)).
Proof.
  intros Ef EF. split; intros s.
  - intros H. rewrite EF. unfold module_at in *. destruct (nth_error (smods s) i) as [m|] eqn:E; [|elim H; reflexivity]. rewrite (at_upd _ _ _ E). discriminate.
  - intros (m & E & B). rewrite EF, E. exists (f m). split; [apply (at_upd _ _ _ E)|]. rewrite Ef. exact B.
Qed.
Lemma okb_call {A} b t (f : st -> world * res A) k : (forall x, okb b t (k x)) -> okb b t (gcall f k).
Proof.
  intros H. apply o_get. intros s. destruct (f s) as [w [x|e]]; (apply o_keep; [apply (same_mods (set_w w)); reflexivity|apply (same_mods (set_w w)); reflexivity|]); [apply H|apply o_raise].
Qed.
Lemma okb_record b t f k : okb b t k -> okb b t (g_record f k).
Proof.
  intros H. apply o_get. intros s. destruct (f s) as [c|e]; [|apply o_raise]. apply o_keep; [| |exact H]; apply (same_mods (fun s => set_cur c (slastv s) s)); reflexivity.
Qed.
(** A sequence of generators, if the first one ends in a certain way at a certain time. *)
Inductive endb : bool -> Z -> gen -> bool -> Z -> Prop :=
| e_ret b t : endb b t GRet b t
| e_raise b t e b' t' : endb b t (GRaise e) b' t'
| e_yield b t e k b' t' : etime e = t \/ b = true -> endb b (etime e) k b' t' -> endb b t (GYield e k) b' t'
| e_keep b t f k b' t' : (forall s, module_at i s -> module_at i (f s)) -> (forall s, on s -> on (f s)) -> endb b t k b' t' -> endb b t (GAct f k) b' t'
| e_busy b t f k b' t' : (forall s, module_at i s -> module_at i (f s)) -> (forall s, module_at i s -> on (f s)) -> endb true t k b' t' -> endb b t (GAct f k) b' t'
| e_free b t f k b' t' : (forall s, module_at i s -> module_at i (f s)) -> endb false t k b' t' -> endb b t (GAct f k) b' t'
| e_get b t k b' t' : (forall s, endb b t (k s) b' t') -> endb b t (GGet k) b' t'.
Lemma okb_seq b t g b' t' k : endb b t g b' t' -> okb b' t' k -> okb b t (gseq g k).
Proof.
  intros H Hk. induction H; cbn [gseq]; auto.
  - apply o_raise.
  - apply o_yield; auto.
  - apply o_keep; auto.
  - apply o_busy; auto.
  - apply o_free; auto.
  - apply o_get; auto.
Qed.
Lemma endb_seq b t g b' t' k b2 t2 : endb b t g b' t' -> endb b' t' k b2 t2 -> endb b t (gseq g k) b2 t2.
Proof.
  intros H Hk. induction H; cbn [gseq]; auto.
  - apply e_raise.
  - apply e_yield; auto.
  - apply e_keep; auto.
  - apply e_busy; auto.
  - apply e_free; auto.
  - apply e_get; auto.
Qed.
Lemma endb_call {A} b t (f : st -> world * res A) k b' t' : (forall x, endb b t (k x) b' t') -> endb b t (gcall f k) b' t'.
Proof.
  intros H. apply e_get. intros s. destruct (f s) as [w [x|e]]; (apply e_keep; [apply (same_mods (set_w w)); reflexivity|apply (same_mods (set_w w)); reflexivity|]); [apply H|apply e_raise].
Qed.
End Busy.

Lemma dup1 (d : dict string) k v : dupdate d [(k, v)] = dset d k v.
Proof. reflexivity. Qed.
Ltac attr := intros d; cbn [dupdate fold_left fst snd]; repeat first [rewrite dget_dset_eq; reflexivity | rewrite dget_dset_neq by discriminate]; reflexivity.
Ltac act_busy := first [apply o_busy|apply e_busy]; [intros ?; apply attrs_module|intros ?; apply attrs_busy; attr|].
Ltac act_free := first [apply o_free|apply e_free]; [intros ?; apply attrs_module|].
Ltac act_keep := first [apply o_keep|apply e_keep]; [intros ?; apply attrs_module|intros ?; apply attrs_keep; attr|].

(** ** Requests that show in the state *)
Section State.
Variable i : nat.
Local Notation ok := (okb i "state").
Local Notation en := (endb i "state").

Lemma clear_end name opt t : en true (roundtime t) (g_clear name i opt t false) true (roundtime t).
Proof. unfold g_clear, set_state. act_busy. apply endb_call. intros _. apply e_yield; [auto|]. apply e_ret. Qed.

Lemma extra_ok name c t b : ok b (roundtime t) (g_extra name i c t).
Proof.
  unfold g_extra, set_state. act_busy. assert (H : ok true (roundtime t) (GAct (set_attrs i [("state", "free")]) (GYield (ev t name (WText "EXTRA TEST ADDED")) GRet))).
  { act_free. apply o_yield; [left; reflexivity|apply o_ret]. }
  destruct c; try exact H. apply o_keep; [| |exact H]; apply (same_mods i "state" (fun s => set_extra (dset (sextra s) name _) s)); reflexivity.
Qed.
Lemma clear_ok name opt t b : ok b (roundtime t) (g_clear name i opt t true).
Proof. unfold g_clear, set_state. act_busy. apply okb_call. intros _. apply o_yield; [auto|]. act_free. apply o_ret. Qed.
Lemma execute_ok O name c t b : ok b (roundtime t) (g_execute O name i c t).
Proof. unfold g_execute, set_state. act_busy. apply okb_call. intros _. act_free. apply o_yield; [left; reflexivity|apply o_ret]. Qed.
Lemma modify_ok name c bs t b : ok b (roundtime t) (g_modify name i c bs t).
Proof. unfold g_modify, set_state. act_busy. apply okb_record, okb_call. intros _. act_free. apply o_yield; [left; reflexivity|apply o_ret]. Qed.
Lemma modreq_ok name c bs t b : ok b (roundtime t) (g_modreq name i c bs t).
Proof.
  unfold g_modreq, set_state. act_busy. apply o_get. intros s. cbv zeta. apply o_yield; [auto|]. apply okb_record, okb_call. intros _. act_free. apply o_yield; [left; reflexivity|apply o_ret].
Qed.
Lemma overwrite_ok name c bs t b : ok b (roundtime t) (g_overwrite name i c bs t).
Proof.
  unfold g_overwrite, set_state. act_busy. apply o_get. intros s. cbv zeta. apply o_yield; [auto|]. apply okb_record, okb_call. intros _. act_free. apply o_yield; [left; reflexivity|apply o_ret].
Qed.
Lemma setgoal_ok name c bs t : ok true (roundtime t) (g_setgoal name i c bs t).
Proof.
  unfold g_setgoal. eapply okb_seq; [apply clear_end|]. apply o_get. intros s. cbv zeta. unfold set_state. apply o_yield; [auto|]. apply okb_record, okb_call. intros _. act_free. apply o_yield; [left; reflexivity|apply o_ret].
Qed.
Lemma retrieve_ok O name c bs t : ok true (roundtime t) (g_retrieve O name i c bs t).
Proof.
  unfold g_retrieve, set_state. apply o_yield; [auto|]. apply okb_call. intros out. cbv zeta. apply o_yield; [auto|]. set (t' := (t + snd out)%Q).
  assert (R : ok false (roundtime t') (g_record (record_retrieve name c (fst out)) (GYield (ev t' name (WText "RETRIEVED")) GRet))).
  { apply okb_record. apply o_yield; [left; reflexivity|apply o_ret]. }
  eapply okb_seq; [|exact R]. cbn [etime ev]. assert (E : en true (roundtime t') (GAct (set_attrs i [("state", "error")]) GRet) false (roundtime t')) by (act_free; apply e_ret).
  destruct (fst out) as [ch|]; [|exact E]. destruct (truthy (VChunk ch)); [|exact E]. apply e_yield; [auto|]. apply endb_call. intros _. act_free. apply e_ret.
Qed.
Lemma find_ok O name c bs t : ok true (roundtime t) (g_find O name i c bs t).
Proof.
  unfold g_find, set_state. apply o_yield; [auto|]. apply okb_call. intros r. cbn [etime ev].
  assert (R : ok false (roundtime t) (GYield (ev t name (WText "ENCODED LOCATION")) GRet)) by (apply o_yield; [left; reflexivity|apply o_ret]).
  eapply okb_seq; [|exact R]. assert (E : en true (roundtime t) (GAct (set_attrs i [("state", "error")]) GRet) false (roundtime t)) by (act_free; apply e_ret).
  destruct r as [[ch stim]|]; [|exact E]. destruct (truthy (VChunk ch)); [|exact E]. eapply endb_seq; [apply clear_end|]. apply endb_call. intros _. act_free. apply e_ret.
Qed.
Lemma motorcont_ok name k t p t0 : ok true t0 (g_motorcont name i k t p).
Proof.
  unfold g_motorcont. apply o_get. intros s. cbv zeta. act_keep. destruct (mod_keep i "state" (fun m => MkMod (mattr m) (Some k, ((if Qeq_bool (snd (mlast_of s i)) 0 then t else snd (mlast_of s i)) + pinit p + pexec p + pfinish p)%Q) (mfocus m) (mattend m) (mmvt m))
    (set_mlast i (Some k, ((if Qeq_bool (snd (mlast_of s i)) 0 then t else snd (mlast_of s i)) + pinit p + pexec p + pfinish p)%Q)) ltac:(reflexivity) ltac:(reflexivity)) as [M K].
  apply o_keep; [exact M|exact K|]. apply o_yield; [auto|]. act_keep. apply o_yield; [auto|].
  destruct (same_mods i "state" (fun s => set_keys (set_add (vvals k) (skeys s)) s) ltac:(reflexivity)) as [M1 K1]. apply o_keep; [exact M1|exact K1|].
  apply o_yield; [auto|]. apply o_yield; [auto|]. act_free. apply o_free; [|apply o_ret].
  intros s1 Hm. unfold set_mlast. unfold module_at in *. destruct (nth_error (smods s1) i) as [m|] eqn:E; [|elim Hm; reflexivity]. rewrite (at_upd i _ _ _ E). discriminate.
Qed.
Lemma motor_ok name c bs t : ok true (roundtime t) (g_motor name i c bs t).
Proof.
  unfold g_motor. destruct c; try apply o_raise. apply okb_call. intros k. apply o_get. intros s. cbv zeta. apply o_keep.
  - intros s1. destruct (_ || _); auto.
  - intros s1. destruct (_ || _); auto.
  - act_busy. apply o_yield; [auto|]. apply o_yield; [auto|]. apply o_cont. intros t'. apply motorcont_ok.
Qed.
End State.

Lemma waits_conv i a t g s g' s' : resume g s = resume g' s' -> all_waits i a t g' s' -> all_waits i a t g s.
Proof.
  intros E H tr f Hr.
  assert (X : exists tr', runs (untouched i) g' s' tr' f /\ map hevent tr' = map hevent tr /\ map hafter tr' = map hafter tr).
  { inversion Hr as [|? ? ? ? Q|? ? ? ? ? Q|? ? ? ? ? Q|? ? ? ? ? ? ? ? ? Q HR Hr']; subst; try (rewrite E in Q).
    - exists []. repeat split. constructor.
    - eexists. split; [eapply runs_done; exact Q|]. split; reflexivity.
    - eexists. split; [eapply runs_raise; exact Q|]. split; reflexivity.
    - eexists. split; [eapply runs_cont; exact Q|]. split; reflexivity.
    - eexists. split; [eapply runs_yield; [exact Q|exact HR|exact Hr']|]. split; reflexivity. }
  destruct X as (tr' & Hr' & E1 & E2). destruct (H tr' f Hr') as (W & C).
  assert (Ww : forall l l' t, map hevent l = map hevent l' -> map hafter l = map hafter l' -> waits_busy i a t l -> waits_busy i a t l').
  { induction l as [|h l IH]; intros [|h' l'] u A B; try discriminate; [auto|]. injection A as A1 A2. injection B as B1 B2. cbn [waits_busy]. rewrite A1, B1. destruct (hevent h'); [|auto]. intros [P Q]. split; [exact P|]. apply IH; assumption. }
  assert (Tt : forall l l' t, map hevent l = map hevent l' -> last_time t l = last_time t l').
  { induction l as [|h l IH]; intros [|h' l'] u A; try discriminate; [auto|]. injection A as A1 A2. cbn [last_time]. rewrite A1. destruct (hevent h'); auto. }
  split; [exact (Ww _ _ _ E1 E2 W)|]. intros l h k s1 tr1 f1 El Ek HU Hr1. rewrite <- (Tt _ _ t E1).
  rewrite El in E2. rewrite map_app in E2. destruct (exists_last (l := tr')) as (l' & h' & El').
  { intros ->. destruct l; discriminate. }
  assert (Eh : hafter h' = hafter h) by (rewrite El', map_app in E2; apply app_inj_tail in E2; apply E2).
  apply (C l' h' k s1 tr1 f1 El' Ek); [rewrite Eh; exact HU|exact Hr1].
Qed.

(** Every method of a rule, for modules other than the visual one. *)
Lemma start_waits O m name i c bs t s : module_at i s -> (m = MRetrieve -> ~ of_kind (sw s) i KVisual) -> all_waits i "state" (roundtime t) (start O m name i c bs t) s.
Proof.
  intros Hm Hk. assert (A : forall g, okb i "state" false (roundtime t) g -> all_waits i "state" (roundtime t) g s) by (intros g Hg; eapply okb_all; [exact Hg|exact Hm|discriminate]).
  destruct m; cbn [start]; [apply A, extra_ok|apply A, modify_ok| |apply A, execute_ok|apply A, clear_ok|apply A, overwrite_ok|apply A, modreq_ok].
  unfold g_request. set (s1 := set_state i "busy" s). assert (M1 : module_at i s1) by (apply attrs_module; exact Hm). assert (B1 : shows i "state" "busy" s1) by (apply attrs_busy; [attr|exact Hm]).
  assert (Ew : sw s1 = sw s) by (unfold s1, set_state, set_attrs; destruct (nth_error (smods s) i); reflexivity).
  eapply waits_conv; [cbn [resume]; reflexivity|]. fold s1. rewrite Ew.
  assert (A1 : forall g, okb i "state" true (roundtime t) g -> all_waits i "state" (roundtime t) g s1) by (intros g Hg; eapply okb_all; [exact Hg|exact M1|auto]).
  destruct (nth_error (bufs (sw s)) i) as [b|] eqn:Eb; [|apply A1, o_raise].
  destruct (bkind b) eqn:Ek; apply A1; try (exfalso; apply (Hk eq_refl); exists b; auto; fail); [apply setgoal_ok|apply retrieve_ok|apply find_ok|apply motor_ok].
Qed.

(** ** The visual module: its processor is busy *)
Section Processor.
Variable i : nat.
Local Notation ok := (okb i "processor").
Local Notation en := (endb i "processor").

Lemma focus_keep p : (forall s, module_at i s -> module_at i (set_focus i p s)) /\ (forall s, shows i "processor" "busy" s -> shows i "processor" "busy" (set_focus i p s)).
Proof. apply (mod_keep i "processor" (fun m => MkMod (mattr m) (mlast m) p (mattend m) (mmvt m))); reflexivity. Qed.
Lemma encode_end name ch t extra site t0 : en true t0 (g_encode name i ch t extra site) true (roundtime (t + extra)).
Proof.
  unfold g_encode, set_state. cbv zeta. act_keep. apply e_keep; [apply focus_keep|apply focus_keep|]. unfold g_clear, set_state. cbn [gseq]. act_keep.
  apply e_get. intros s. destruct (clear_into s i name false (t + extra)) as [w [u|e]]; cbn [gseq]; (apply e_keep; [apply (same_mods i "processor" (set_w w)); reflexivity|apply (same_mods i "processor" (set_w w)); reflexivity|]); [|apply e_raise].
  apply e_yield; [auto|]. apply endb_call. intros _. act_keep. apply e_yield; [auto|]. apply e_ret.
Qed.
Lemma viscont_ok O name ch bs t times site t0 : ok true t0 (g_viscont O name i ch bs t times site).
Proof.
  unfold g_viscont. destruct times as [[enc prep] exe]. act_keep. apply o_get. intros s. cbv zeta. set (t1 := ((if Qle_bool (mvt_of s i) t then t else mvt_of s i) + exe)%Q).
  apply o_keep; [apply (mod_keep i "processor" (fun m => MkMod (mattr m) (mlast m) (mfocus m) (mattend m) t1)); reflexivity|apply (mod_keep i "processor" (fun m => MkMod (mattr m) (mlast m) (mfocus m) (mattend m) t1)); reflexivity|].
  apply o_yield; [auto|]. apply o_keep; [apply focus_keep|apply focus_keep|]. apply o_yield; [auto|].
  assert (F : forall t', ok true t' (GAct (set_attrs i [("processor", "free"); ("execution", "free"); ("state", "free")]) (GAct (set_attend i true) GRet))).
  { intros t'. act_free. apply o_free; [|apply o_ret]. apply (mod_keep i "processor" (fun m => MkMod (mattr m) (mlast m) (mfocus m) true (mmvt m))); reflexivity. }
  destruct (Qle_bool enc (prep + exe)).
  - apply F.
  - cbn [gseq gcall]. apply o_get. intros s2. destruct (oshift O s2 i (CChunk ch) bs) as [w [[[ch2 [[enc2 p2] e2]] site2]|e]]; cbn [gseq]; (apply o_keep; [apply (same_mods i "processor" (set_w w)); reflexivity|apply (same_mods i "processor" (set_w w)); reflexivity|]); [|apply o_raise].
    eapply okb_seq; [apply encode_end|apply F].
Qed.
Lemma shift_ok O name c bs t b : ok b (roundtime t) (g_shift O name i c bs t).
Proof.
  unfold g_shift. apply okb_call. intros [[ch [[enc prep] exe]] site]. act_busy. apply o_yield; [auto|]. cbv zeta. cbn [etime ev].
  assert (K : forall t', ok true t' (GYield (ev (t + prep) name (WText "PREPARATION TO SHIFT VISUAL ATTENTION COMPLETED"))
     (gseq (if negb (Qle_bool enc prep) && Qle_bool enc (prep + exe) then g_encode name i ch (t + prep - prep) enc site else GRet)
     (GCont (g_viscont O name i ch bs (t + prep) (enc, prep, exe) site))))).
  { intros t'. apply o_yield; [auto|]. cbn [etime ev]. assert (C : forall u, ok true u (GCont (g_viscont O name i ch bs (t + prep) (enc, prep, exe) site))) by (intros u; apply o_cont; intros u'; apply viscont_ok).
    destruct (negb (Qle_bool enc prep) && Qle_bool enc (prep + exe)); [|apply C]. eapply okb_seq; [|apply C]. apply encode_end. }
  destruct (Qle_bool enc prep); [|apply K]. eapply okb_seq; [apply encode_end|apply K].
Qed.
Lemma visual_ok O name c bs t b : ok b (roundtime t) (g_visual O name i c bs t).
Proof.
  unfold g_visual. destruct c; try apply o_raise. destruct (resolve_slots bs true (removeunused c)) as [args|e]; [|apply o_raise]. destruct (dget args "cmd") as [[?|w| |?]|]; try apply o_raise.
  assert (C : forall e, etime e = roundtime t -> ok b (roundtime t) (GAct (set_attend i false) (GAct (set_state i "free") (GYield e GRet)))).
  { intros e He. apply o_keep; [apply (mod_keep i "processor" (fun m => MkMod (mattr m) (mlast m) (mfocus m) false (mmvt m))); reflexivity|apply (mod_keep i "processor" (fun m => MkMod (mattr m) (mlast m) (mfocus m) false (mmvt m))); reflexivity|].
    unfold set_state. act_keep. apply o_yield; [auto|apply o_ret]. }
  destruct (vvals w) as [| |x|ch]; try apply o_raise; try apply o_ret.
  repeat match goal with |- ok _ _ (match ?x with _ => _ end) => destruct x end; first [apply o_raise|apply o_ret|apply shift_ok|apply C; reflexivity].
Qed.
End Processor.

(** A request to the visual module. *)
Lemma visual_waits O name i c bs t s : module_at i s -> of_kind (sw s) i KVisual -> all_waits i "processor" (roundtime t) (start O MRetrieve name i c bs t) s.
Proof.
  intros Hm (b & Eb & Ek). cbn [start]. unfold g_request. set (s1 := set_state i "busy" s). assert (M1 : module_at i s1) by (apply attrs_module; exact Hm).
  assert (Ew : sw s1 = sw s) by (unfold s1, set_state, set_attrs; destruct (nth_error (smods s) i); reflexivity).
  eapply waits_conv; [cbn [resume]; reflexivity|]. fold s1. rewrite Ew, Eb, Ek. eapply okb_all; [apply visual_ok with (b := false)|exact M1|discriminate].
Qed.
