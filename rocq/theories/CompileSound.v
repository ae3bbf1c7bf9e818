(** Compiling two rules that test and modify the same buffer: when the compiled rule does what its
    parents do. *)
From Coq Require Import Lia.
From Verif Require Import Base BaseFacts Chunks ChunkFacts ChunkMatch TypeFacts DecMem Buffers BufferFacts ModifyFacts Productions ProdSpec Compile CompileFacts CompileSame CompileTerms CompileFire.
From Verif Require Import ChunkSpec CompileSpec.
Local Open Scope string_scope.
Local Open Scope list_scope.

(** ** Parts of one chunk *)

Definition ren (r : string) (a : term) : term := match a with TVar x => TVar (renamed x r) | _ => a end.
Definition over (a b : term) : term := match a with TBlank => b | TConst t => TConst t | TVar x => TVar x end.
Definition term_in (d : dict slotval) (n : string) : term := match dget d n with Some s => tm s | None => TBlank end.

Section Sides.
Variables (ks : list string) (g : string).
Hypothesis Nd : NoDup ks.
Definition parts (c : chunk) : Prop := dkeys (cslots c) = ks /\ forall n s, In (n, s) (cslots c) -> simple s.

Lemma with_slots_get f c c' n s : parts c -> with_slots f c = Ok c' -> dget (cslots c) n = Some s ->
  exists w, f s = Ok w /\ dget (cslots c') n = Some (Some w).
Proof.
  intros (K & _) H E. apply with_slots_spec in H. destruct H as (_ & F). rewrite <- K in Nd. clear K. revert E F.
  generalize (cslots c'). revert Nd. generalize (cslots c). intros l. induction l as [|[k a] l IH]; intros ND l' E F; [discriminate|].
  inversion F as [|x [k' a'] l1 l2 (K & w & Ew & Fw) F2]; subst. cbn in K, Ew, Fw. subst k' a'. inversion ND as [|? ? N1 N2]; subst. cbn [dget] in E |- *.
  destruct (String.eqb k n); [injection E as <-; exists w; auto|]. exact (IH N2 _ E F2).
Qed.
Lemma with_slots_parts f tf c c' : parts c -> with_slots f c = Ok c' ->
  (forall s w, simple s -> f s = Ok w -> simple (Some w) /\ tm (Some w) = tf (tm s)) -> tf TBlank = TBlank ->
  parts c' /\ ctype c' = ctype c /\ forall n, at_ c' n = tf (at_ c n).
Proof.
  intros P H Hf Hb. pose proof (with_slot_keys _ _ _ H) as K'. destruct (with_slots_spec _ _ _ H) as (Ty & F). split; [|split; [exact Ty|]].
  - split; [rewrite K'; exact (proj1 P)|]. intros n s Hin. destruct (Forall2_In_r _ _ _ _ F Hin) as ([k a] & Hin2 & (E & w & Ew & Fw)). cbn in *. subst s.
    apply (Hf a w (proj2 P _ _ Hin2) Fw).
  - intros n. unfold at_. destruct (dget (cslots c) n) as [s|] eqn:E.
    + destruct (with_slots_get f c c' n s P H E) as (w & Fw & ->). apply (Hf s w (proj2 P _ _ (dget_In _ _ E)) Fw).
    + assert (dget (cslots c') n = None) as ->; [|symmetry; exact Hb]. apply dget_None. rewrite K'. apply dget_None. exact E.
Qed.
Lemma parts_at c n : parts c -> In n ks -> exists s, In (n, s) (cslots c) /\ dget (cslots c) n = Some s /\ at_ c n = tm s /\ simple s.
Proof.
  intros (K & S) Hn. rewrite <- K in Hn. apply in_map_iff in Hn. destruct Hn as ([n' s] & E & Hin). cbn in E. subst n'.
  exists s. split; [exact Hin|]. assert (D : dget (cslots c) n = Some s) by (apply dget_NoDup; [rewrite K; exact Nd|exact Hin]). split; [exact D|].
  split; [unfold at_; rewrite D; reflexivity|exact (S _ _ Hin)].
Qed.
Lemma parts_out c n : parts c -> ~ In n ks -> at_ c n = TBlank.
Proof. intros (K & _) Hn. unfold at_. rewrite <- K in Hn. apply dget_None in Hn. rewrite Hn. reflexivity. Qed.

Lemma with_parts_one f c l : with_parts f [(String "=" g, CChunk c)] = Ok l -> exists c', with_slots f c = Ok c' /\ l = [(String "=" g, CChunk c')].
Proof.
  unfold with_parts. cbn [rmap fst snd]. cbn [carries]. cbn. intros H.
  destruct (with_slots f c) as [c'|]; [|discriminate]. cbn in H. injection H as <-. exists c'. auto.
Qed.

(** *** Merging *)

Lemma merge_tests_parts c1 c2 c : parts c1 -> parts c2 -> merge_tests c1 c2 = Ok c ->
  parts c /\ ctype c = ctype c1 /\ forall n, at_ c n = over (at_ c1 n) (at_ c2 n).
Proof.
  intros P1 P2 H. unfold merge_tests in H. apply rbind_Ok in H. destruct H as (l & Hl & H). injection H as <-. cbn [cslots ctype].
  assert (L : forall n, In n ks -> exists s1 s2, dget (cslots c1) n = Some s1 /\ dget (cslots c2) n = Some s2 /\ dget l n = Some (Some (merge_part s1 s2)) /\ simple s1 /\ simple s2).
  { intros n Hn. destruct (parts_at _ _ P1 Hn) as (s1 & _ & D1 & _ & S1). destruct (parts_at _ _ P2 Hn) as (s2 & _ & D2 & _ & S2). exists s1, s2. split; [exact D1|]. split; [exact D2|]. split; [|auto].
    apply rmap_Forall2 in Hl. destruct P2 as (K2 & _). assert (N2 : NoDup (dkeys (cslots c2))) by (rewrite K2; exact Nd). clear K2 Hn. revert l Hl D2 N2. generalize (cslots c2).
    intros l2. induction l2 as [|[k a] l2 IH]; intros l Hl D2 N2; [discriminate|]. inversion Hl as [|x y l1 l3 E F]; subst. cbn [fst snd] in E. cbn [dget] in D2.
    inversion N2 as [|? ? N3 N4]; subst. destruct (String.eqb_spec k n) as [->|Nk].
    - injection D2 as ->. rewrite D1 in E. injection E as <-. cbn [dget]. rewrite String.eqb_refl. reflexivity.
    - destruct (dget (cslots c1) k); [|discriminate]. injection E as <-. cbn [dget]. apply String.eqb_neq in Nk. rewrite Nk. exact (IH _ F D2 N4). }
  assert (G : forall n, dget (map (fun p => (fst p, match dget l (fst p) with Some s => s | None => None end)) (cslots c1)) n =
    match dget (cslots c1) n with Some _ => Some (match dget l n with Some s => s | None => None end) | None => None end).
  { intros n. generalize (cslots c1). intros d1. induction d1 as [|[k a] l1 IH]; [reflexivity|]. cbn [map dget fst]. destruct (String.eqb_spec k n) as [->|_]; [reflexivity|exact IH]. }
  split; [|split; [reflexivity|]].
  - split; [cbn; unfold dkeys; rewrite map_map; cbn; exact (proj1 P1)|]. cbn. intros n s Hin. apply in_map_iff in Hin. destruct Hin as ([k a] & E & Hin). cbn [fst] in E. injection E as <- <-.
    assert (Hk : In k ks) by (rewrite <- (proj1 P1); apply in_map_iff; exists (k, a); auto). destruct (L k Hk) as (s1 & s2 & _ & _ & -> & S1 & S2). apply (merge_simple _ _ S1 S2).
  - intros n. destruct (in_dec string_dec n ks) as [Hn|Hn].
    + destruct (L n Hn) as (s1 & s2 & D1 & D2 & Dl & S1 & S2). unfold at_. cbn [cslots]. rewrite G, D1, D2, Dl. exact (proj2 (merge_simple _ _ S1 S2)).
    + rewrite (parts_out _ _ P1 Hn), (parts_out _ _ P2 Hn). cbn. unfold at_. cbn [cslots]. rewrite G. destruct P1 as (K1 & _). rewrite <- K1 in Hn. apply dget_None in Hn. rewrite Hn. reflexivity.
Qed.

Lemma merge_act_parts c V : parts c -> (forall n, In n ks -> exists s, dget V n = Some s /\ simple s) ->
  let c' := MkChunk (ctype c) (map (fun q => (fst q, match dget V (fst q) with Some s => Some (merge_part (snd q) s) | None => snd q end)) (cslots c)) in
  parts c' /\ forall n, In n ks -> at_ c' n = over (at_ c n) (term_in V n).
Proof.
  intros P HV c'. split.
  - split; [cbn; unfold dkeys; rewrite map_map; cbn; exact (proj1 P)|]. cbn. intros n s Hin. apply in_map_iff in Hin. destruct Hin as ([k a] & E & Hin). cbn [fst snd] in E. injection E as <- <-.
    assert (Hk : In k ks) by (rewrite <- (proj1 P); apply in_map_iff; exists (k, a); auto). destruct (HV k Hk) as (s & -> & S). apply (merge_simple _ _ (proj2 P _ _ Hin) S).
  - intros n Hn. destruct (parts_at _ _ P Hn) as (a & _ & D & Ea & Sa). destruct (HV n Hn) as (s & Es & S). unfold term_in. rewrite Es, Ea. unfold at_, c'. cbn [cslots].
    assert (G : dget (map (fun q => (fst q, match dget V (fst q) with Some s => Some (merge_part (snd q) s) | None => snd q end)) (cslots c)) n = Some (Some (merge_part a s))).
    { revert D. induction (cslots c) as [|[k b] l IH]; [discriminate|]. cbn [map dget fst snd]. destruct (String.eqb_spec k n) as [->|_]; [|exact IH]. intros [= ->]. rewrite Es. reflexivity. }
    rewrite G. exact (proj2 (merge_simple _ _ Sa S)).
Qed.
End Sides.

(** ** The new rule *)

Lemma eq_key g : (String "=" g =? String "=" g) = true.
Proof. apply String.eqb_refl. Qed.
Lemma collapse_one vals g c1 c2 r1 l :
  collapse_lhs vals None (Ok [(String "=" g, CChunk c1)]) r1 (Ok [(String "=" g, CChunk c2)]) = Ok l ->
  exists c, merge_tests c1 c2 = Ok c /\ l = [(String "=" g, CChunk c)].
Proof.
  unfold collapse_lhs. cbn -[String.eqb merge_tests orb ddel]. rewrite eq_key. cbn -[String.eqb merge_tests orb ddel]. rewrite orb_true_r.
  destruct (merge_tests c1 c2) as [c|]; [|discriminate]. unfold ddel. cbn -[String.eqb merge_tests]. rewrite eq_key. cbn. intros [= <-]. exists c. auto.
Qed.
Lemma collapse_act vals g d c1 c2 r : dget vals g = Some (SDict d) ->
  collapse_rhs vals None (Ok [(String "=" g, CChunk c1)]) (Ok [(String "=" g, CChunk c2)]) = Ok r ->
  r = [(String "=" g, CChunk (MkChunk (ctype c2) (map (fun q => (fst q, match dget d (fst q) with Some s => Some (merge_part (snd q) s) | None => snd q end)) (cslots c2))))].
Proof.
  intros E. unfold collapse_rhs. cbn [rbind rmap]. unfold merge_action. cbn [fst snd]. cbn [rhs_meth]. cbn -[String.eqb]. rewrite E. cbn -[String.eqb]. rewrite String.eqb_refl. cbn. congruence.
Qed.

Lemma dupdate_get {A} (d e : dict A) n : NoDup (dkeys e) -> dget (dupdate d e) n = match dget e n with Some a => Some a | None => dget d n end.
Proof. apply dget_dupdate. Qed.

Section Compile.
Variables (ks : list string) (g T : string).
Hypothesis Inc : increasing ks.
Let Nd : NoDup ks := increasing_NoDup _ Inc.
Variables (p1 m1 p2 m2 : chunk) (ru1 ru2 : rule).
Hypothesis OB1 : one_buffer ks g T ru1 p1 m1.
Hypothesis OB2 : one_buffer ks g T ru2 p2 m2.
(** A slot of the first rule's action is unset or says something. *)
Hypothesis Strict : forall n w, dget (cslots m1) n = Some (Some w) -> at_ m1 n <> TBlank.
(** Whatever is used in an action occurs in the test. *)
Hypothesis Sub1 : forall n x, at_ m1 n = TVar x -> exists n', at_ p1 n' = TVar x.
Hypothesis Sub2 : forall n x, at_ m2 n = TVar x -> exists n', at_ p2 n' = TVar x.
Variable n2 : string.
Hypothesis Fresh : forall n y, at_ p2 n = TVar y -> renamed y n2 <> g.
Hypothesis Apart : forall n n' x y, at_ p1 n = TVar x -> at_ p2 n' = TVar y -> x <> renamed y n2.

(** What the first rule leaves behind, as far as it says. *)
Definition after1 (n : string) : term := over (at_ m1 n) (at_ p1 n).

Lemma parts1 : parts ks p1 /\ parts ks m1 /\ parts ks p2 /\ parts ks m2.
Proof. destruct OB1 as [_ _ [A1 A2 _] [B1 B2 _] _], OB2 as [_ _ [C1 C2 _] [D1 D2 _] _]. split; [|split; [|split]]; split; assumption. Qed.

Let V : dict slotval := dupdate (cslots p1) (set_slots m1).
Lemma set_slots_get n : dget (set_slots m1) n = match dget (cslots m1) n with Some (Some w) => Some (Some w) | _ => None end.
Proof.
  destruct parts1 as (_ & (K & _) & _). unfold set_slots. rewrite <- K in Nd. clear K. revert Nd. generalize (cslots m1). intros l. induction l as [|[k [w|]] l IH]; intros N; [reflexivity| |].
  - cbn [filter snd dget]. inversion N; subst. destruct (String.eqb k n); [reflexivity|]. apply IH. assumption.
  - cbn [filter snd dget]. inversion N as [|? ? N1 N2]; subst. rewrite IH by assumption. destruct (String.eqb_spec k n) as [->|_]; [|reflexivity].
    cbn [fst] in N1. apply dget_None in N1. change (map fst l) with (dkeys l) in *. rewrite N1. reflexivity.
Qed.
Lemma set_slots_NoDup : NoDup (dkeys (set_slots m1)).
Proof.
  destruct parts1 as (_ & (K & _) & _). unfold set_slots. rewrite <- K in Nd. clear K. revert Nd. generalize (cslots m1). intros l. induction l as [|[k o] l IH]; intros N; [constructor|].
  cbn [filter snd]. inversion N as [|? ? N1 N2]; subst. destruct o; [|auto]. cbn. constructor; [|auto]. intros Hin. apply N1.
  apply in_map_iff in Hin. destruct Hin as (q & E & Hin). apply filter_In in Hin. apply in_map_iff. exists q. tauto.
Qed.
Lemma V_get n : dget V n = match dget (cslots m1) n with Some (Some w) => Some (Some w) | _ => dget (cslots p1) n end.
Proof.
  unfold V. rewrite dupdate_get by exact set_slots_NoDup. rewrite set_slots_get. destruct (dget (cslots m1) n) as [[w|]|]; reflexivity.
Qed.
Lemma V_simple n s : dget V n = Some s -> simple s.
Proof.
  rewrite V_get. destruct parts1 as ((_ & S1) & (_ & S2) & _). destruct (dget (cslots m1) n) as [[w|]|] eqn:E.
  - intros [= <-]. exact (S2 _ _ (dget_In _ _ E)).
  - intros H. exact (S1 _ _ (dget_In _ _ H)).
  - intros H. exact (S1 _ _ (dget_In _ _ H)).
Qed.
Lemma V_term n : term_in V n = after1 n.
Proof.
  unfold term_in, after1. rewrite V_get. destruct (dget (cslots m1) n) as [[w|]|] eqn:E.
  - pose proof (Strict n w E) as X. unfold at_ in *. rewrite E in *. destruct (tm (Some w)); [elim X|..]; reflexivity.
  - unfold at_. rewrite E. reflexivity.
  - unfold at_. rewrite E. reflexivity.
Qed.
Lemma V_in n : In n ks -> exists s, dget V n = Some s /\ simple s.
Proof.
  intros Hn. destruct (parts_at ks Nd p1 n (proj1 parts1) Hn) as (s & _ & D & _ & _). destruct (dget V n) as [a|] eqn:E; [exists a; split; [reflexivity|exact (V_simple n a E)]|].
  rewrite V_get, D in E. destruct (dget (cslots m1) n) as [[w|]|]; discriminate.
Qed.
Lemma part_V n : simple (Some (part_of V n)) /\ tm (Some (part_of V n)) = after1 n.
Proof.
  rewrite <- V_term. unfold part_of, term_in. destruct (dget V n) as [s|] eqn:E.
  - split; [apply simple_splitting, (V_simple n s E)|apply tm_splitting].
  - split; [constructor|reflexivity].
Qed.

(** What the tests of the second rule meet. *)
Definition met : list (term * term) := map (fun n => (after1 n, ren n2 (at_ p2 n))) ks.
Lemma met_in a b : In (a, b) met <-> exists n, In n ks /\ a = after1 n /\ b = ren n2 (at_ p2 n).
Proof.
  unfold met. rewrite in_map_iff. split; [intros (n & E & Hn); injection E as <- <-; eauto|intros (n & Hn & -> & ->); eauto].
Qed.

Variables (tie : string -> string -> bool) (s : st) (vals : dict slotinfo).
Hypothesis Vals : dget vals g = Some (SDict V) /\ forall b i, In (b, i) vals -> i = SNone \/ exists d, i = SDict d.

Theorem new_shape l r : combine tie s n2 ru1 ru2 vals = Ok (Some (Ok l, Ok r)) ->
  exists P M mv, l = [(String "=" g, CChunk P)] /\ r = [(String "=" g, CChunk M)] /\ parts ks P /\ parts ks M /\ ctype M = T /\
    found tie met mv /\ tame mv /\
    (forall n, at_ P n = over (subst_term mv (at_ p1 n)) (subst_term mv (ren n2 (at_ p2 n)))) /\
    (forall n, In n ks -> at_ M n = over (subst_term mv (ren n2 (at_ m2 n))) (subst_term mv (after1 n))).
Proof.
  intros H. apply combine_inv in H. destruct H as (_ & retr & vs & lhs2 & vals1 & mv & vals2 & l1 & r1 & l2 & r2 & r2' & Hs & E1 & E2 & E3 & E4 & E5 & E6 & E7 & E8 & E9 & E10).
  destruct parts1 as (P1 & P2 & P3 & P4). destruct Vals as (Vg & Vo).
  rewrite (ob_lhs _ _ _ _ _ _ OB1) in E5. rewrite (ob_rhs _ _ _ _ _ _ OB1) in E6. rewrite (ob_lhs _ _ _ _ _ _ OB2) in E1. rewrite (ob_rhs _ _ _ _ _ _ OB2) in E2.
  apply with_parts_one in E1. destruct E1 as (p2' & E1 & ->). apply with_parts_one in E2. destruct E2 as (m2' & E2 & ->).
  apply with_parts_one in E5. destruct E5 as (P1' & E5 & ->). apply with_parts_one in E6. destruct E6 as (M1' & E6 & ->).
  apply with_parts_one in E7. destruct E7 as (P2' & E7 & ->). apply with_parts_one in E8. destruct E8 as (M2' & E8 & ->).
  assert (RN : forall sl w, simple sl -> rename_part n2 vs sl = Ok w -> simple (Some w) /\ tm (Some w) = ren n2 (tm sl)).
  { intros sl w S E. destruct (rename_simple _ _ _ _ S E) as (A & B). split; [exact A|]. rewrite B. destruct (tm sl); reflexivity. }
  destruct (with_slots_parts ks Nd _ (ren n2) _ _ P3 E1 RN eq_refl) as (Q1 & _ & A1).
  destruct (with_slots_parts ks Nd _ (ren n2) _ _ P4 E2 RN eq_refl) as (Q2 & T2 & A2).
  (* no retrieval *)
  assert (Rn : retr = None).
  { assert (G : forall vl o x, (forall b i, In (b, i) vl -> i = SNone \/ exists d, i = SDict d) -> scan_vals s vl o x = Ok (Some (retr, vs)) -> retr = o).
    { induction vl as [|[b i] vl IH]; intros o x Hv Hsc; cbn [scan_vals] in Hsc; [congruence|].
      destruct (Hv b i (or_introl eq_refl)) as [->|(d & ->)]; apply IH in Hsc; auto; intros b' i' Hin; apply (Hv b' i'); right; exact Hin. }
    exact (G _ _ _ Vo Hs). }
  subst retr.
  (* match *)
  cbn [match_sides] in E3. cbn [carries] in E3. cbn in E3. rewrite Vg in E3.
  destruct (match_plain tie (cslots p2') V ([], [])) as [mv'|] eqn:Em; [|discriminate]. cbn in E3. injection E3 as <- <-.
  pose proof (match_found tie V (fun n => proj1 (part_V n)) (cslots p2') (fun q Hq => proj2 Q1 (fst q) (snd q) (eq_ind q (fun z => In z (cslots p2')) Hq _ (surjective_pairing q))) [] ([], []) mv' (found_nil tie) Em) as F.
  cbn [app] in F.
  assert (Fm : pairs V (cslots p2') = met).
  { unfold pairs, met. destruct Q1 as (K & _). rewrite <- K at 1. unfold dkeys. rewrite map_map. apply map_ext_in. intros [n a] Hin. cbn [fst snd]. rewrite (proj2 (part_V n)). f_equal.
    rewrite <- A1. unfold at_. rewrite (dget_NoDup (cslots p2') n a); [reflexivity|rewrite K; exact Nd|exact Hin]. }
  rewrite Fm in F.
  assert (Tm : tame mv').
  { apply (found_tame _ _ _ F). intros a b x Hin Hx. apply met_in in Hin. destruct Hin as (n & Hn & -> & ->). destruct Hx as [Hx|Hx].
    - destruct (part_V n) as (S & E). apply (proj2 (simple_term _ S)). congruence.
    - destruct (at_ p2 n); try discriminate. cbn in Hx. injection Hx as <-. apply renamed_not_empty. }
  assert (SB : forall sl w, simple sl -> subst_part (fst mv') (snd mv') sl = Ok w -> simple (Some w) /\ tm (Some w) = subst_term mv' (tm sl)).
  { intros sl w S E. destruct (subst_simple mv' sl Tm S) as (w' & Ew & A). rewrite E in Ew. injection Ew as <-. exact A. }
  destruct (with_slots_parts ks Nd _ (subst_term mv') _ _ P1 E5 SB eq_refl) as (R1 & _ & B1).
  destruct (with_slots_parts ks Nd _ (subst_term mv') _ _ P2 E6 SB eq_refl) as (R2 & _ & B2).
  destruct (with_slots_parts ks Nd _ (subst_term mv') _ _ Q1 E7 SB eq_refl) as (R3 & _ & B3).
  destruct (with_slots_parts ks Nd _ (subst_term mv') _ _ Q2 E8 SB eq_refl) as (R4 & T4 & B4).
  (* the recorded slots *)
  assert (V2 : exists V', dget vals2 g = Some (SDict V') /\ forall n, In n ks -> exists w, dget V' n = Some (Some w) /\ simple (Some w) /\ tm (Some w) = subst_term mv' (after1 n)).
  { unfold subst_vals in E4. revert E4 Vg. generalize vals2, vals. clear - SB OB1 OB2 Strict Inc Nd Vals V. intros v0 vl0. revert v0. induction vl0 as [|[b i] vl IH]; intros v0 E4 Vg; [cbn [dget] in Vg; discriminate|].
    cbn [rmap] in E4. apply rbind_Ok in E4. destruct E4 as ([b' i'] & Ei & E4). apply rbind_Ok in E4. destruct E4 as (rest & Er & E4). injection E4 as <-.
    cbn [fst snd] in Ei. cbn [dget] in Vg |- *. assert (b' = b) as ->.
    { destruct i; [congruence| |discriminate]. apply rbind_Ok in Ei. destruct Ei as (d' & _ & Ei). congruence. }
    destruct (String.eqb b g); [|exact (IH _ Er Vg)]. injection Vg as ->. apply rbind_Ok in Ei. destruct Ei as (V' & Ed & Ei). injection Ei as <-.
    exists V'. split; [reflexivity|]. intros n Hn. destruct (V_in n Hn) as (sl & Es & Ss). rewrite <- V_term. unfold term_in. rewrite Es.
    assert (X : exists w, dget V' n = Some (Some w) /\ subst_part (fst mv') (snd mv') sl = Ok w).
    { apply rmap_Forall2 in Ed. revert V' Ed Es. clear. generalize V. intros vv0. induction vv0 as [|[k a] vv0 IH]; intros V' F E; [discriminate|].
      inversion F as [|x y l1 l3 Ey F2]; subst. cbn [fst snd] in Ey. destruct (subst_part (fst mv') (snd mv') a) as [w|] eqn:Ew; [|discriminate]. injection Ey as <-. cbn [dget] in E |- *.
      destruct (String.eqb k n); [injection E as ->; exists w; auto|exact (IH _ F2 E)]. }
    destruct X as (w & Ew & Sw). exists w. split; [exact Ew|]. exact (SB _ _ Ss Sw). }
  destruct V2 as (V' & Vg' & VV).
  (* the test *)
  apply collapse_one in E9. destruct E9 as (P & Mt & ->).
  destruct (merge_tests_parts ks Nd _ _ _ R1 R3 Mt) as (S1 & _ & C1).
  (* the action *)
  apply (collapse_act _ _ _ _ _ _ Vg') in E10. subst r.
  destruct (merge_act_parts ks Nd M2' V' R4) as (S2 & C2).
  { intros n Hn. destruct (VV n Hn) as (w & E & S & _). eauto. }
  exists P, (MkChunk (ctype M2') (map (fun q => (fst q, match dget V' (fst q) with Some s => Some (merge_part (snd q) s) | None => snd q end)) (cslots M2'))), mv'.
  split; [reflexivity|]. split; [reflexivity|]. split; [exact S1|]. split; [exact S2|]. split; [cbn; rewrite T4, T2; exact (ob_type _ _ _ _ _ _ OB2)|].
  split; [exact F|]. split; [exact Tm|]. split.
  - intros n. rewrite C1, B1, B3, A1. reflexivity.
  - intros n Hn. rewrite (C2 n Hn), B4, A2. f_equal. destruct (VV n Hn) as (w & E & _ & Et). unfold term_in. rewrite E. exact Et.
Qed.

(** *** Soundness and completeness *)

(** Each variable of the second rule's test meets one thing, of a shorter name if it is a variable; a
    variable of the first rule that meets a constant meets nothing else. *)
Hypothesis Once : forall n n' y, at_ p2 n = TVar y -> at_ p2 n' = TVar y -> after1 n = after1 n'.
Hypothesis Short : forall n x y, after1 n = TVar x -> at_ p2 n = TVar y -> (String.length x < String.length (renamed y n2))%nat.
Hypothesis Const : forall n n' x c, after1 n = TVar x -> at_ p2 n = TConst c -> after1 n' = TVar x -> at_ p2 n' = TBlank \/ at_ p2 n' = TConst c.

Lemma in_ks1 n x : at_ p1 n = TVar x -> In n ks.
Proof. intros E. destruct (in_dec string_dec n ks) as [H|H]; [exact H|]. rewrite (parts_out ks p1 n (proj1 parts1) H) in E. discriminate. Qed.
Lemma in_ks2 n x : at_ p2 n = TVar x -> In n ks.
Proof. intros E. destruct (in_dec string_dec n ks) as [H|H]; [exact H|]. rewrite (parts_out ks p2 n (proj1 (proj2 (proj2 parts1))) H) in E. discriminate. Qed.
Lemma after1_var n x : after1 n = TVar x -> exists n', In n' ks /\ at_ p1 n' = TVar x.
Proof.
  unfold after1. intros E. assert (H : exists n', at_ p1 n' = TVar x).
  { destruct (at_ m1 n) as [|c|y] eqn:Em; cbn in E; [eauto|discriminate|]. injection E as <-. exact (Sub1 n y Em). }
  destruct H as (n' & H). exists n'. split; [exact (in_ks1 _ _ H)|exact H].
Qed.
Lemma ren_var a z : ren n2 a = TVar z -> exists y, a = TVar y /\ z = renamed y n2.
Proof. destruct a; cbn; try discriminate. intros [= <-]. eauto. Qed.
Lemma met_agreeable : agreeable met.
Proof.
  constructor.
  - intros x a b H1 H2. apply met_in in H1. apply met_in in H2. destruct H1 as (n & _ & E & _), H2 as (n' & _ & _ & E'). symmetry in E, E'.
    apply after1_var in E. destruct E as (k & _ & E). apply ren_var in E'. destruct E' as (y & E' & ->). exact (Apart k n' _ y E E' eq_refl).
  - intros y a a' H1 H2. apply met_in in H1. apply met_in in H2. destruct H1 as (n & _ & -> & E), H2 as (n' & _ & -> & E'). symmetry in E, E'.
    apply ren_var in E. destruct E as (z & E & ->). apply ren_var in E'. destruct E' as (z' & E' & R). apply renamed_inj in R. subst z'. exact (Once _ _ _ E E').
  - intros x y H. apply met_in in H. destruct H as (n & _ & E & E'). symmetry in E, E'. apply ren_var in E'. destruct E' as (z & E' & ->). exact (Short _ _ _ E E').
  - intros x c b H1 H2. apply met_in in H1. apply met_in in H2. destruct H1 as (n & _ & E & Ec), H2 as (n' & _ & E' & ->). symmetry in E, E'.
    assert (Hc : at_ p2 n = TConst c) by (destruct (at_ p2 n); cbn in Ec; congruence). destruct (Const _ _ _ _ E Hc E') as [X|X]; rewrite X; auto.
Qed.
Lemma image_var mv a z : found tie met mv -> subst_term mv a = TVar z ->
  a = TVar z \/ (exists n, after1 n = TVar z) \/ exists n y, at_ p2 n = TVar y /\ z = renamed y n2.
Proof.
  intros F H. destruct a as [|c|x]; cbn in H; try discriminate. destruct (dget (snd mv) x) as [u|] eqn:Ex.
  { destruct (fd_value _ _ _ F _ _ Ex) as (t & -> & _). discriminate. }
  injection H as <-. unfold image. destruct (dget (fst mv) x) as [z|] eqn:Ez; [|auto].
  destruct (fd_match _ _ _ F _ _ Ez) as (_ & [(-> & _)|(a & b & Hin & _ & Z & _)]); [auto|]. right.
  apply met_in in Hin. destruct Hin as (n & _ & E & E'). symmetry in E, E'. apply ren_var in E'. destruct E' as (y & E' & ->).
  assert (Q : z = a \/ z = renamed y n2) by (subst z; unfold shorter; destruct (Nat.compare _ _); [destruct (tie _ _)| |]; auto).
  destruct Q as [->| ->]; [left|right]; eauto.
Qed.
Lemma subst_blank mv a : subst_term mv a = TBlank -> (forall x u, dget (snd mv) x = Some u -> exists t, u = VStr t) -> a = TBlank.
Proof. intros H Hs. destruct a as [|c|x]; cbn in H; [reflexivity|discriminate|]. destruct (dget (snd mv) x) as [u|] eqn:E; [|discriminate]. destruct (Hs _ _ E) as (t & ->). discriminate. Qed.

Lemma not_g1 n x : after1 n = TVar x -> x <> g.
Proof. intros E. apply after1_var in E. destruct E as (n' & _ & E). intros ->. exact (sc_names _ _ _ (ob_test _ _ _ _ _ _ OB1) n' E). Qed.

Section New.
Variables (P M : chunk) (mv : dict string * dict value) (new : rule).
Hypothesis (NL : rlhs new = [(String "=" g, CChunk P)]) (NR : rrhs new = [(String "=" g, CChunk M)]) (NP : parts ks P) (NM : parts ks M) (NT : ctype M = T).
Hypothesis F : found tie met mv.
Hypothesis AP : forall n, at_ P n = over (subst_term mv (at_ p1 n)) (subst_term mv (ren n2 (at_ p2 n))).
Hypothesis AM : forall n, In n ks -> at_ M n = over (subst_term mv (ren n2 (at_ m2 n))) (subst_term mv (after1 n)).

Lemma values_str x u : dget (snd mv) x = Some u -> exists t, u = VStr t /\ proper t.
Proof. intros E. destruct (fd_value _ _ _ F _ _ E) as (t & A & B & _). eauto. Qed.
Lemma over_cases a b : (a <> TBlank /\ over a b = a) \/ (a = TBlank /\ over a b = b).
Proof. destruct a; cbn; [right|left|left]; split; congruence. Qed.
Lemma subst_nonblank a : a <> TBlank -> subst_term mv a <> TBlank.
Proof. intros H E. apply H. apply (subst_blank mv a E). intros x u D. destruct (values_str x u D) as (t & A & _). eauto. Qed.
Lemma ren_nonblank a : a <> TBlank -> ren n2 a <> TBlank.
Proof. destruct a; cbn; congruence. Qed.
Lemma over_subst a b : over (subst_term mv a) b = match a with TBlank => b | _ => subst_term mv a end.
Proof.
  destruct a as [|c|x]; [reflexivity|reflexivity|]. pose proof (subst_nonblank (TVar x)) as H. destruct (over_cases (subst_term mv (TVar x)) b) as [(_ & E)|(E & _)]; [exact E|elim H; [discriminate|exact E]].
Qed.
Lemma P_of_p1 n : at_ p1 n <> TBlank -> at_ P n = subst_term mv (at_ p1 n).
Proof. intros H. rewrite AP, over_subst. destruct (at_ p1 n); [elim H|..]; reflexivity. Qed.
Lemma P_of_p2 n : at_ p1 n = TBlank -> at_ P n = subst_term mv (ren n2 (at_ p2 n)).
Proof. intros H. rewrite AP, over_subst, H. reflexivity. Qed.
Lemma M_of_m2 n : In n ks -> at_ m2 n <> TBlank -> at_ M n = subst_term mv (ren n2 (at_ m2 n)).
Proof. intros Hn H. rewrite (AM n Hn), over_subst. destruct (at_ m2 n); [elim H|..]; reflexivity. Qed.
Lemma M_of_1 n : In n ks -> at_ m2 n = TBlank -> at_ M n = subst_term mv (after1 n).
Proof. intros Hn H. rewrite (AM n Hn), over_subst, H. reflexivity. Qed.
Lemma image_not_g a z : subst_term mv a = TVar z -> (forall x, a = TVar x -> x <> g) -> z <> g.
Proof.
  intros H Hg. destruct (image_var mv a z F H) as [E|[(n & E)|(n & y & E & ->)]]; [exact (Hg _ E)|exact (not_g1 n z E)|exact (Fresh n y E)].
Qed.
Lemma ren_p2_g n x : ren n2 (at_ p2 n) = TVar x -> x <> g.
Proof. intros E. apply ren_var in E. destruct E as (y & E & ->). exact (Fresh n y E). Qed.
Lemma ren_m2_g n x : ren n2 (at_ m2 n) = TVar x -> x <> g.
Proof. intros E. apply ren_var in E. destruct E as (y & E & ->). destruct (Sub2 n y E) as (n' & E'). exact (Fresh n' y E'). Qed.

Lemma new_one : one_buffer ks g T new P M.
Proof.
  constructor; [exact NL|exact NR| | |exact NT].
  - constructor; [exact (proj1 NP)|exact (proj2 NP)|]. intros n E. destruct (at_ p1 n) as [|c|x] eqn:E1.
    + rewrite (P_of_p2 n E1) in E. exact (image_not_g _ _ E (ren_p2_g n) eq_refl).
    + rewrite (P_of_p1 n) in E; rewrite E1 in *; discriminate.
    + rewrite (P_of_p1 n) in E by (rewrite E1; discriminate). refine (image_not_g _ _ E _ eq_refl). intros y Ey Eg. subst y. exact (sc_names _ _ _ (ob_test _ _ _ _ _ _ OB1) n Ey).
  - constructor; [exact (proj1 NM)|exact (proj2 NM)|]. intros n E. destruct (in_dec string_dec n ks) as [Hn|Hn]; [|rewrite (parts_out ks M n NM Hn) in E; discriminate].
    destruct (at_ m2 n) as [|c|x] eqn:E1.
    + rewrite (M_of_1 n Hn E1) in E. exact (image_not_g _ _ E (not_g1 n) eq_refl).
    + rewrite (M_of_m2 n Hn) in E; rewrite E1 in *; discriminate.
    + rewrite (M_of_m2 n Hn) in E by (rewrite E1; discriminate). exact (image_not_g _ _ E (ren_m2_g n) eq_refl).
Qed.

(** Two readings that pass the same test agree on its variables. *)
Lemma passes_agree p d f f' : passes ks f p d -> passes ks f' p d -> parts ks p -> forall n x, at_ p n = TVar x -> f x = f' x.
Proof.
  intros H H' Hp n x E. assert (Hn : In n ks) by (destruct (in_dec string_dec n ks) as [H0|H0]; [exact H0|rewrite (parts_out ks p n Hp H0) in E; discriminate]).
  specialize (H n Hn). specialize (H' n Hn). rewrite E in *. cbn in *. rewrite <- H' in H by discriminate. specialize (H ltac:(discriminate)). congruence.
Qed.
Lemma eval_agree (f f' : string -> string) a : (forall x, a = TVar x -> f x = f' x) -> eval f a = eval f' a.
Proof. destruct a as [|c|x]; cbn; intros H; [reflexivity|reflexivity|]. f_equal. exact (H x eq_refl). Qed.
Lemma eval_ren f a : eval f (ren n2 a) = eval (fun y => f (renamed y n2)) a.
Proof. destruct a; reflexivity. Qed.
Lemma eval_blank f a : eval f a = None <-> a = TBlank.
Proof. destruct a; cbn; split; congruence. Qed.

(** What the first rule leaves. *)
Lemma leaves1 f d d1 n : passes ks f p1 d -> moved ks f m1 d d1 -> In n ks ->
  text d1 n = match eval f (after1 n) with Some t => Some t | None => text d n end.
Proof.
  intros H1 H2 Hn. rewrite (H2 n Hn). unfold after1. destruct (over_cases (at_ m1 n) (at_ p1 n)) as [(N & ->)|(N & ->)]; [reflexivity|].
  rewrite N. cbn. destruct (eval f (at_ p1 n)) as [t|] eqn:E; [|reflexivity]. rewrite <- E. symmetry. apply (H1 n Hn). intros X. rewrite X in E. discriminate.
Qed.

Lemma same_end s0 sa sb i d d' : arena ks g T sa i d -> arena ks g T sb i d' -> still s0 sa -> still s0 sb ->
  (forall j, j <> i -> nth_error (bufs (sw sa)) j = nth_error (bufs (sw s0)) j) -> (forall j, j <> i -> nth_error (bufs (sw sb)) j = nth_error (bufs (sw s0)) j) ->
  (forall n, In n ks -> text d n = text d' n) -> same_buffers sa sb.
Proof.
  intros [A1 (b1 & A2 & _ & A3) _ _ A4] [B1 (b2 & B2 & _ & B3) _ _ B4] (_ & Sa & _) (_ & Sb & _) Fa Fb H b. unfold content_of. rewrite Sa, Sb.
  destruct (dget (snames s0) b) as [j|]; [|constructor]. destruct (Nat.eq_dec j i) as [->|Nj].
  - rewrite A2, B2, A3, B3. constructor; [|constructor]. intros n. destruct (in_dec string_dec n ks) as [Hn|Hn].
    + destruct (flat_text _ _ _ A4 Hn) as (t & _ & T1 & V1 & _). destruct (flat_text _ _ _ B4 Hn) as (t' & _ & T2 & V2 & _). rewrite V1, V2.
      specialize (H n Hn). rewrite T1, T2 in H. injection H as ->. apply same_content_refl.
    + unfold slot_value. assert (dget (cslots d) n = None) as -> by (apply dget_None; intros X; apply Hn; exact (proj1 (proj2 A4) n X)).
      assert (dget (cslots d') n = None) as -> by (apply dget_None; intros X; apply Hn; exact (proj1 (proj2 B4) n X)). apply same_content_refl.
  - rewrite (Fa j Nj), (Fb j Nj). destruct (nth_error (bufs (sw s0)) j) as [bf|]; [|constructor]. induction (bdata bf) as [|c l IH]; constructor; [|exact IH]. intros n. apply same_content_refl.
Qed.

Variables (O : oracle) (t : Q) (s0 : st) (i : nat) (d : chunk) (n1 nn : string).
Hypothesis (A0 : arena ks g T s0 i d) (R1 : dget (srules s0) n1 = Some ru1) (R2 : dget (srules s0) n2 = Some ru2) (RN : dget (srules s0) nn = Some new).

Theorem new_sound : like_parents O t s0 n1 n2 nn.
Proof.
  intros s' Hf. destruct (fires_moves ks g T Inc O t s0 i d nn new P M s' A0 RN new_one Hf) as (f & d' & Hp & Hm & A' & St' & Fr' & _).
  destruct (eval_subst f mv values_str) as (f0 & Hf0).
  assert (P1 : passes ks f0 p1 d).
  { intros n Hn Nb. rewrite <- Hf0, <- (P_of_p1 n Nb). apply (Hp n Hn). rewrite (P_of_p1 n Nb). exact (subst_nonblank _ Nb). }
  destruct (moves_fires ks g T Inc O t s0 i d n1 ru1 p1 m1 f0 A0 R1 OB1 P1 Sub1) as (s1 & Hf1).
  destruct (fires_moves ks g T Inc O t s0 i d n1 ru1 p1 m1 s1 A0 R1 OB1 Hf1) as (f1 & d1 & Hp1 & Hm1 & A1 & St1 & Fr1 & _).
  pose proof (passes_agree p1 d f1 f0 Hp1 P1 (proj1 parts1)) as Ag1.
  assert (L1 : forall n, In n ks -> text d1 n = match eval f0 (after1 n) with Some t => Some t | None => text d n end).
  { intros n Hn. rewrite (leaves1 f1 d d1 n Hp1 Hm1 Hn). rewrite (eval_agree f1 f0); [reflexivity|]. intros x E. destruct (after1_var n x E) as (n' & _ & E'). exact (Ag1 n' x E'). }
  assert (P2 : passes ks (fun y => f0 (renamed y n2)) p2 d1).
  { intros n Hn Nb. rewrite <- eval_ren, (L1 n Hn). destruct (after1 n) as [|c|x] eqn:Ea.
    - cbn. assert (E1 : at_ p1 n = TBlank) by (unfold after1 in Ea; destruct (at_ m1 n); [exact Ea|discriminate|discriminate]).
      rewrite <- Hf0, <- (P_of_p2 n E1). apply (Hp n Hn). rewrite (P_of_p2 n E1). apply subst_nonblank, ren_nonblank, Nb.
    - rewrite <- Ea. assert (E : subst_term mv (after1 n) = subst_term mv (ren n2 (at_ p2 n))).
      { apply (unifies tie met mv F met_agreeable); [apply met_in; exists n; auto|rewrite Ea; discriminate|exact (ren_nonblank _ Nb)]. }
      rewrite <- !Hf0, <- E. rewrite Ea. reflexivity.
    - rewrite <- Ea. assert (E : subst_term mv (after1 n) = subst_term mv (ren n2 (at_ p2 n))).
      { apply (unifies tie met mv F met_agreeable); [apply met_in; exists n; auto|rewrite Ea; discriminate|exact (ren_nonblank _ Nb)]. }
      rewrite <- Hf0, <- E, Hf0, Ea. reflexivity. }
  assert (R2' : dget (srules s1) n2 = Some ru2) by (rewrite (proj1 St1); exact R2).
  destruct (moves_fires ks g T Inc O t s1 i d1 n2 ru2 p2 m2 _ A1 R2' OB2 P2 Sub2) as (s2 & Hf2).
  destruct (fires_moves ks g T Inc O t s1 i d1 n2 ru2 p2 m2 s2 A1 R2' OB2 Hf2) as (f2 & d2 & Hp2 & Hm2 & A2 & St2 & Fr2 & _).
  pose proof (passes_agree p2 d1 f2 _ Hp2 P2 (proj1 (proj2 (proj2 parts1)))) as Ag2.
  exists s1, s2. split; [exact Hf1|]. split; [exact Hf2|].
  apply (same_end s0 s2 s' i d2 d' A2 A' (still_trans _ _ _ St1 St2) St').
  - intros j Hj. rewrite (Fr2 j Hj). exact (Fr1 j Hj).
  - exact Fr'.
  - intros n Hn. rewrite (Hm2 n Hn), (Hm n Hn), (L1 n Hn). destruct (at_ m2 n) as [|c|y] eqn:E2.
    + cbn. rewrite (M_of_1 n Hn E2), Hf0. reflexivity.
    + rewrite (M_of_m2 n Hn) by (rewrite E2; discriminate). rewrite E2. cbn. reflexivity.
    + rewrite (M_of_m2 n Hn) by (rewrite E2; discriminate). rewrite Hf0, eval_ren, E2. cbn. destruct (Sub2 n y E2) as (n' & E'). rewrite (Ag2 n' y E'). reflexivity.
Qed.

(** Whatever the second rule tests and the first rule sets is tested by the first rule. *)
Hypothesis Tested : forall n, at_ m1 n <> TBlank -> at_ p2 n <> TBlank -> at_ p1 n <> TBlank.
Definition vars2 : list string := flat_map (fun n => match at_ p2 n with TVar y => [y] | _ => [] end) ks.

Theorem new_complete : serves_for O t s0 n1 n2 nn.
Proof.
  intros s1 s2 Hf1 Hf2.
  destruct (fires_moves ks g T Inc O t s0 i d n1 ru1 p1 m1 s1 A0 R1 OB1 Hf1) as (f1 & d1 & Hp1 & Hm1 & A1 & St1 & Fr1 & _).
  assert (R2' : dget (srules s1) n2 = Some ru2) by (rewrite (proj1 St1); exact R2).
  destruct (fires_moves ks g T Inc O t s1 i d1 n2 ru2 p2 m2 s2 A1 R2' OB2 Hf2) as (f2 & d2 & Hp2 & Hm2 & A2 & St2 & Fr2 & _).
  set (f := fun x => match find (fun y => String.eqb (renamed y n2) x) vars2 with Some y => f2 y | None => f1 x end).
  assert (Fa : forall n x, at_ p1 n = TVar x -> f x = f1 x).
  { intros n x E. unfold f. destruct (find _ vars2) as [y|] eqn:Ef; [|reflexivity]. apply find_some in Ef. destruct Ef as (Hy & Ey). apply String.eqb_eq in Ey.
    unfold vars2 in Hy. apply in_flat_map in Hy. destruct Hy as (n' & _ & Hy). destruct (at_ p2 n') as [|c|y'] eqn:E'; [destruct Hy|destruct Hy|]. destruct Hy as [->|[]].
    elim (Apart n n' x y E E'). symmetry. exact Ey. }
  assert (Fb : forall n y, at_ p2 n = TVar y -> f (renamed y n2) = f2 y).
  { intros n y E. unfold f. destruct (find _ vars2) as [z|] eqn:Ef.
    - apply find_some in Ef. destruct Ef as (_ & Ez). apply String.eqb_eq in Ez. apply renamed_inj in Ez. congruence.
    - exfalso. pose proof (find_none _ _ Ef y) as X. cbv beta in X. rewrite String.eqb_refl in X. discriminate X. unfold vars2. apply in_flat_map. exists n. split; [exact (in_ks2 n y E)|]. rewrite E. left. reflexivity. }
  assert (Ea : forall n, eval f (after1 n) = eval f1 (after1 n)).
  { intros n. apply eval_agree. intros x E. destruct (after1_var n x E) as (n' & _ & E'). exact (Fa n' x E'). }
  assert (E1 : forall n, eval f (at_ p1 n) = eval f1 (at_ p1 n)) by (intros n; apply eval_agree; intros x E; exact (Fa n x E)).
  assert (E2 : forall n, eval f (ren n2 (at_ p2 n)) = eval f2 (at_ p2 n)) by (intros n; rewrite eval_ren; apply eval_agree; intros x E; exact (Fb n x E)).
  assert (E3 : forall n, eval f (ren n2 (at_ m2 n)) = eval f2 (at_ m2 n)).
  { intros n. rewrite eval_ren. apply eval_agree. intros x E. destruct (Sub2 n x E) as (n' & E'). exact (Fb n' x E'). }
  assert (L1 : forall n, In n ks -> text d1 n = match eval f (after1 n) with Some t => Some t | None => text d n end).
  { intros n Hn. rewrite Ea. exact (leaves1 f1 d d1 n Hp1 Hm1 Hn). }
  assert (MG : forall a, eval f (subst_term mv a) = eval f a).
  { apply (most_general tie met mv f F). intros a b Hin Na Nb. apply met_in in Hin. destruct Hin as (n & Hn & -> & ->). rewrite E2.
    assert (Nb2 : at_ p2 n <> TBlank) by (intros X; rewrite X in Nb; elim Nb; reflexivity).
    rewrite (Hp2 n Hn Nb2), (L1 n Hn). destruct (eval f (after1 n)) eqn:X; [reflexivity|]. apply eval_blank in X. congruence. }
  assert (PP : passes ks f P d).
  { intros n Hn Nb. destruct (at_ p1 n) as [|c|x] eqn:Ep.
    - rewrite (P_of_p2 n Ep) in Nb |- *. rewrite MG, E2. assert (Nb2 : at_ p2 n <> TBlank) by (intros X; rewrite X in Nb; elim Nb; reflexivity).
      rewrite (Hp2 n Hn Nb2), (L1 n Hn). assert (Em : at_ m1 n = TBlank).
      { destruct (at_ m1 n) eqn:Em; [reflexivity| |]; elim (Tested n); try assumption; rewrite Em; discriminate. }
      unfold after1. rewrite Em, Ep. reflexivity.
    - rewrite (P_of_p1 n) by (rewrite Ep; discriminate). rewrite MG, E1. apply (Hp1 n Hn). rewrite Ep. discriminate.
    - rewrite (P_of_p1 n) by (rewrite Ep; discriminate). rewrite MG, E1. apply (Hp1 n Hn). rewrite Ep. discriminate. }
  assert (Im : forall n z, subst_term mv (after1 n) = TVar z -> exists n', at_ P n' = TVar z).
  { intros n z E. destruct (after1 n) as [|c|x] eqn:Ex; [discriminate|discriminate|]. destruct (after1_var n x Ex) as (n' & _ & E').
    exists n'. rewrite (P_of_p1 n') by (rewrite E'; discriminate). rewrite E'. exact E. }
  assert (SubN : forall n z, at_ M n = TVar z -> exists n', at_ P n' = TVar z).
  { intros n z E. assert (Hn : In n ks) by (destruct (in_dec string_dec n ks) as [Hn|Hn]; [exact Hn|rewrite (parts_out ks M n NM Hn) in E; discriminate]).
    destruct (at_ m2 n) as [|c|y] eqn:Em.
    - rewrite (M_of_1 n Hn Em) in E. exact (Im n z E).
    - rewrite (M_of_m2 n Hn) in E; rewrite Em in *; discriminate.
    - rewrite (M_of_m2 n Hn) in E by (rewrite Em; discriminate). destruct (Sub2 n y Em) as (n' & E'). rewrite Em, <- E' in E.
      destruct (at_ p1 n') as [|c|x] eqn:Ep; [exists n'; rewrite (P_of_p2 n' Ep); exact E| |];
        (apply (Im n' z); rewrite <- E; apply (unifies tie met mv F met_agreeable); [apply met_in; exists n'; split; [exact (in_ks2 n' y E')|auto]| |rewrite E'; discriminate];
         unfold after1; rewrite Ep; destruct (at_ m1 n'); discriminate). }
  destruct (moves_fires ks g T Inc O t s0 i d nn new P M f A0 RN new_one PP SubN) as (s' & Hf).
  destruct (fires_moves ks g T Inc O t s0 i d nn new P M s' A0 RN new_one Hf) as (f' & d' & Hp & Hm & A' & St' & Fr' & _).
  pose proof (passes_agree P d f' f Hp PP NP) as Ag.
  exists s'. split; [exact Hf|].
  apply (same_end s0 s2 s' i d2 d' A2 A' (still_trans _ _ _ St1 St2) St').
  - intros j Hj. rewrite (Fr2 j Hj). exact (Fr1 j Hj).
  - exact Fr'.
  - intros n Hn. rewrite (Hm2 n Hn), (Hm n Hn), (L1 n Hn). rewrite (eval_agree f' f (at_ M n)) by (intros x E; destruct (SubN n x E) as (n' & E'); exact (Ag n' x E')).
    destruct (at_ m2 n) as [|c|y] eqn:Em.
    + cbn. rewrite (M_of_1 n Hn Em), MG. reflexivity.
    + rewrite (M_of_m2 n Hn), MG, E3, Em by (rewrite Em; discriminate). reflexivity.
    + rewrite (M_of_m2 n Hn), MG, E3, Em by (rewrite Em; discriminate). reflexivity.
Qed.
End New.
End Compile.

(** ** Rules that compile well *)

(** [ru1] and [ru2] both test and modify the buffer [g] and nothing else, with texts and variables only,
    on chunks of the type [T] with the slots [ks]. *)
Record plain_pair (ks : list string) (g T n2 : string) (ru1 ru2 : rule) (p1 m1 p2 m2 : chunk) : Prop := MkPair {
  pp_keys : increasing ks;
  pp_one : one_buffer ks g T ru1 p1 m1;
  pp_two : one_buffer ks g T ru2 p2 m2;
  (** A slot of the first rule's action is unset or says something. *)
  pp_strict : forall n w, dget (cslots m1) n = Some (Some w) -> at_ m1 n <> TBlank;
  (** Variables of the actions occur in the tests. *)
  pp_sub1 : forall n x, at_ m1 n = TVar x -> exists n', at_ p1 n' = TVar x;
  pp_sub2 : forall n x, at_ m2 n = TVar x -> exists n', at_ p2 n' = TVar x;
  (** The new names of the second rule's variables are new, and the name of the buffer is none of them. *)
  pp_fresh : forall n y, at_ p2 n = TVar y -> (y ++ "__rule__" ++ n2)%string <> g;
  pp_apart : forall n n' x y, at_ p1 n = TVar x -> at_ p2 n' = TVar y -> x <> (y ++ "__rule__" ++ n2)%string;
  (** A variable that occurs twice in the second rule's test meets the same thing both times. *)
  pp_once : forall n n' y, at_ p2 n = TVar y -> at_ p2 n' = TVar y -> after1 p1 m1 n = after1 p1 m1 n';
  (** Variables of the first rule are shorter than the new names of what they meet. *)
  pp_short : forall n x y, after1 p1 m1 n = TVar x -> at_ p2 n = TVar y -> (String.length x < String.length (y ++ "__rule__" ++ n2))%nat;
  (** A variable of the first rule that meets a text meets nothing else. *)
  pp_const : forall n n' x c, after1 p1 m1 n = TVar x -> at_ p2 n = TConst c -> after1 p1 m1 n' = TVar x -> at_ p2 n' = TBlank \/ at_ p2 n' = TConst c }.

Section Final.
Variables (ks : list string) (g T : string) (n1 n2 n : string) (ru1 ru2 new : rule) (p1 m1 p2 m2 : chunk).
Hypothesis PP : plain_pair ks g T n2 ru1 ru2 p1 m1 p2 m2.
Variables (O : oracle) (tie : string -> string -> bool) (s : st) (vals : dict slotinfo) (rs : dict rule).
Hypothesis (Qc : qcompile (sp s) = true) (R1 : dget (srules s) n1 = Some ru1) (R2 : dget (srules s) n2 = Some ru2).
Hypothesis (Rec : recorded O s n1 vals) (C : compile_rules tie s n1 n2 vals = Ok (Some (n, false, rs))) (RN : dget rs n = Some new).

Lemma recorded_vals : dget vals g = Some (SDict (dupdate (cslots p1) (set_slots m1))) /\ forall b i, In (b, i) vals -> i = SNone \/ exists d, i = SDict d.
Proof.
  destruct Rec as (t & s0 & s1 & E1 & E2 & E3 & E4 & F & ->).
  destruct (fires_noted O t g p1 m1 s0 n1 ru1 s1) as (E & _); [rewrite E1; exact R1|exact (ob_lhs _ _ _ _ _ _ (pp_one _ _ _ _ _ _ _ _ _ _ PP))|exact (ob_rhs _ _ _ _ _ _ (pp_one _ _ _ _ _ _ _ _ _ _ PP))|exact F|].
  rewrite E. unfold noted. rewrite E3, Qc. split; [apply dget_dset_eq|]. rewrite E4. intros b i Hin.
  assert (D : forall (d : dict slotinfo) k a, In (b, i) (dset d k a) -> i = a \/ In (b, i) d).
  { induction d as [|[k' a'] d IH]; intros k a H; cbn [dset] in H; [destruct H as [[= <- <-]|[]]; auto|].
    destruct (String.eqb k' k); [destruct H as [[= <- <-]|H]; [auto|right; right; exact H]|]. destruct H as [H|H]; [right; left; exact H|].
    destruct (IH _ _ H); [auto|right; right; assumption]. }
  destruct (D _ _ _ Hin) as [->|H]; [eauto|]. left. unfold no_slotvals in H. apply in_map_iff in H. destruct H as ([k a] & X & _). congruence.
Qed.
Lemma compiled_shape : exists P M mv, rlhs new = [(String "=" g, CChunk P)] /\ rrhs new = [(String "=" g, CChunk M)] /\ parts ks P /\ parts ks M /\ ctype M = T /\
    found tie (met ks p1 m1 p2 n2) mv /\ tame mv /\
    (forall k, at_ P k = over (subst_term mv (at_ p1 k)) (subst_term mv (ren n2 (at_ p2 k)))) /\
    (forall k, In k ks -> at_ M k = over (subst_term mv (ren n2 (at_ m2 k))) (subst_term mv (after1 p1 m1 k))).
Proof.
  destruct PP as [Inc O1 O2 St _ _ _ _ _ _ _].
  exact (new_shape ks g T Inc p1 m1 p2 m2 ru1 ru2 O1 O2 St n2 tie s vals recorded_vals _ _ (new_combine tie s n1 n2 vals n rs ru1 ru2 new C R1 R2 RN)).
Qed.

Variables (t : Q) (s0 : st) (i : nat) (d : chunk).
Hypothesis (A0 : arena ks g T s0 i d) (S1 : dget (srules s0) n1 = Some ru1) (S2 : dget (srules s0) n2 = Some ru2) (SN : dget (srules s0) n = Some new).
Theorem compile_sound : like_parents O t s0 n1 n2 n.
Proof.
  destruct compiled_shape as (P & M & mv & NL & NR & NP & NM & NT & F & _ & AP & AM). destruct PP as [Inc O1 O2 St Sb1 Sb2 Fr Ap On Sh Co].
  exact (new_sound ks g T Inc p1 m1 p2 m2 ru1 ru2 O1 O2 Sb1 Sb2 n2 Fr Ap tie On Sh Co P M mv new NL NR NP NM NT F AP AM O t s0 i d n1 n A0 S1 S2 SN).
Qed.
Theorem compile_complete : (forall k, at_ m1 k <> TBlank -> at_ p2 k <> TBlank -> at_ p1 k <> TBlank) -> serves_for O t s0 n1 n2 n.
Proof.
  intros Te. destruct compiled_shape as (P & M & mv & NL & NR & NP & NM & NT & F & _ & AP & AM). destruct PP as [Inc O1 O2 St Sb1 Sb2 Fr Ap On Sh Co].
  exact (new_complete ks g T Inc p1 m1 p2 m2 ru1 ru2 O1 O2 Sb1 Sb2 n2 Fr Ap tie On Sh Co P M mv new NL NR NP NM NT F AP AM O t s0 i d n1 n A0 S1 S2 SN Te).
Qed.
End Final.
