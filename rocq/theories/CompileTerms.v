(** Matching the variables of two rules, for slots that hold a constant, a variable or nothing. *)
From Coq Require Import Lia.
From Verif Require Import Base BaseFacts Chunks DecMem Buffers Productions Compile CompileFacts CompileSpec.
Local Open Scope string_scope.
Local Open Scope list_scope.

(** ** Slots as terms *)

Inductive term := TBlank | TConst (t : string) | TVar (x : string).
Definition proper (t : string) : Prop := t <> "" /\ t <> "None" /\ t <> ">" /\ t <> "<".
Inductive simple : slotval -> Prop :=
| simple_unset : simple None
| simple_blank : simple (Some (MkVV VNone None [] []))
| simple_const t : proper t -> simple (Some (MkVV (VStr t) None [] []))
| simple_var x : x <> "" -> simple (Some (MkVV VNone (Some x) [] [])).
Definition tm (s : slotval) : term :=
  match s with
  | None => TBlank
  | Some w => match vvar w with
              | Some x => TVar x
              | None => match vvals w with VStr t => TConst t | _ => TBlank end
              end
  end.
Lemma tm_splitting s : tm (Some (splitting s)) = tm s.
Proof. destruct s as [w|]; reflexivity. Qed.
Lemma simple_splitting s : simple s -> simple (Some (splitting s)).
Proof. intros [| | t P | x P]; cbn [splitting]; [constructor|constructor|constructor; exact P|constructor; exact P]. Qed.

(** What a simple slot looks like. *)
Lemma simple_cases s : simple s ->
  (tm s = TBlank /\ truthy (vvals (splitting s)) = false /\ var_truthy (vvar (splitting s)) = None) \/
  (exists t, tm s = TConst t /\ proper t /\ vvals (splitting s) = VStr t /\ truthy (vvals (splitting s)) = true /\ var_truthy (vvar (splitting s)) = None) \/
  (exists x, tm s = TVar x /\ x <> "" /\ truthy (vvals (splitting s)) = false /\ var_truthy (vvar (splitting s)) = Some x).
Proof.
  intros [| | t P | x P].
  - left. auto.
  - left. auto.
  - right. left. exists t. split; [reflexivity|]. split; [exact P|]. split; [reflexivity|]. split; [|reflexivity].
    cbn. destruct (String.eqb_spec t ""); [destruct P; congruence|reflexivity].
  - right. right. exists x. split; [reflexivity|]. split; [exact P|]. split; [reflexivity|]. apply var_truthy_some. split; [reflexivity|exact P].
Qed.

(** ** The substitution *)

Definition subst_term (mv : dict string * dict value) (a : term) : term :=
  match a with
  | TVar x => match dget (snd mv) x with
              | Some (VStr t) => TConst t
              | Some _ => TBlank
              | None => TVar (image (fst mv) x)
              end
  | _ => a
  end.
(** Values are constants, variables are replaced by variables. *)
Definition tame (mv : dict string * dict value) : Prop :=
  (forall x u, dget (snd mv) x = Some u -> exists t, u = VStr t /\ proper t) /\
  (forall x y, dget (fst mv) x = Some y -> y <> "").
Lemma subst_simple mv s : tame mv -> simple s ->
  exists w, subst_part (fst mv) (snd mv) s = Ok w /\ simple (Some w) /\ tm (Some w) = subst_term mv (tm s).
Proof.
  intros [T1 T2] Hs. destruct Hs as [| | t P | x P].
  - eexists. split; [reflexivity|]. split; [constructor|reflexivity].
  - eexists. split; [reflexivity|]. split; [constructor|reflexivity].
  - eexists. split; [reflexivity|]. split; [constructor; exact P|reflexivity].
  - unfold subst_part. cbn [splitting vvar vvals vnegvals vnegvars]. rewrite (proj2 (var_truthy_some (Some x) x) (conj eq_refl P)).
    cbn [tm vvar subst_term]. destruct (dget (snd mv) x) as [u|] eqn:E.
    + destruct (T1 _ _ E) as (t & -> & Pt). cbn [truthy]. eexists. split; [reflexivity|]. split; [constructor; exact Pt|reflexivity].
    + eexists. split; [reflexivity|]. cbn [rbind fst snd map filter fold_left sdedup]. split; [|reflexivity].
      assert (I : image (fst mv) x <> "").
      { unfold image. destruct (dget (fst mv) x) as [y|] eqn:Ey; [exact (T2 _ _ Ey)|exact P]. }
      exact (simple_var _ I).
Qed.
Lemma rename_simple r vs s w : simple s -> rename_part r vs s = Ok w ->
  simple (Some w) /\ tm (Some w) = match tm s with TVar x => TVar (renamed x r) | a => a end.
Proof.
  intros [| | t P | x P]; unfold rename_part; cbn [splitting vvar vvals vnegvals vnegvars var_truthy rbind].
  - intros [= <-]. split; [constructor|reflexivity].
  - intros [= <-]. split; [constructor|reflexivity].
  - intros [= <-]. split; [constructor; exact P|reflexivity].
  - assert (V : var_truthy (Some x) = Some x) by (apply var_truthy_some; auto). unfold var_truthy in V. rewrite V.
    destruct (smem ("=" ++ renamed x r) vs); [discriminate|]. cbn [rbind]. intros [= <-]. split; [|reflexivity].
    constructor. apply renamed_not_empty.
Qed.
Lemma merge_simple a b : simple a -> simple b ->
  simple (Some (merge_part a b)) /\ tm (Some (merge_part a b)) = match tm a with TBlank => tm b | c => c end.
Proof.
  intros Ha Hb. unfold merge_part, part_truthy.
  destruct (simple_cases _ Ha) as [(E & T & V)|[(t & E & _ & _ & T & V)|(x & E & P & T & V)]]; rewrite E, T, V.
  - assert (N : match vnegvals (splitting a) with [] => false | _ => true end = false /\ match vnegvars (splitting a) with [] => false | _ => true end = false)
      by (destruct Ha; split; reflexivity).
    destruct N as [-> ->]. cbn [orb]. split; [apply simple_splitting; exact Hb|apply tm_splitting].
  - cbn [orb]. split; [apply simple_splitting; exact Ha|rewrite tm_splitting; exact E].
  - cbn [orb]. split; [apply simple_splitting; exact Ha|rewrite tm_splitting; exact E].
Qed.

(** ** What match finds *)

Section Found.
Variable tie : string -> string -> bool.
(** The recorded slots, by name. *)
Variable d3 : dict slotval.
Hypothesis D3 : forall n, simple (Some (part_of d3 n)).

Definition pairs (slots : dict slotval) : list (term * term) := map (fun p => (tm (Some (part_of d3 (fst p))), tm (snd p))) slots.

Record found (l : list (term * term)) (mv : dict string * dict value) : Prop := MkFound {
  fd_value : forall x u, dget (snd mv) x = Some u -> exists t, u = VStr t /\ proper t /\ (In (TConst t, TVar x) l \/ In (TVar x, TConst t) l);
  fd_match : forall x z, dget (fst mv) x = Some z -> x <> "" /\
    ((z = x /\ (In (TVar x, TBlank) l \/ In (TBlank, TVar x) l \/ In (TVar x, TVar x) l)) \/
     exists a b, In (TVar a, TVar b) l /\ (x = a \/ x = b) /\ z = shorter tie b a /\ a <> b);
  fd_cv : forall t x, In (TConst t, TVar x) l -> dget (snd mv) x <> None;
  fd_vc : forall t x, In (TVar x, TConst t) l -> dget (snd mv) x <> None;
  fd_vv : forall a b, In (TVar a, TVar b) l -> dget (fst mv) a <> None /\ dget (fst mv) b <> None;
  fd_cc : forall t u, In (TConst t, TConst u) l -> t = u }.


Lemma dset_some {A} (d : dict A) k a x : dget d x <> None -> dget (dset d k a) x <> None.
Proof. intros H. rewrite dget_dset. destruct (String.eqb_spec k x); [discriminate|exact H]. Qed.

(** One slot: [a] was recorded, [b] is tested. *)
Definition settle (a b : term) (mv : dict string * dict value) : dict string * dict value :=
  match a, b with
  | TConst t, TVar x | TVar x, TConst t => (fst mv, dset (snd mv) x (VStr t))
  | TVar x, TVar y => if String.eqb x y then (dset (fst mv) x x, snd mv)
                      else (dset (dset (fst mv) y (shorter tie y x)) x (shorter tie y x), snd mv)
  | TVar x, TBlank | TBlank, TVar x => (dset (fst mv) x x, snd mv)
  | _, _ => mv
  end.

Lemma assign_settle w2 w3 mv : simple (Some w2) -> simple (Some w3) ->
  assign tie (both_vars w2 w3) (if truthy (vvals w2) then vvals w2 else if truthy (vvals w3) then vvals w3 else VNone) mv =
  settle (tm (Some w3)) (tm (Some w2)) mv.
Proof.
  intros H2 H3. unfold both_vars, var_list.
  destruct (simple_cases _ H2) as [(E2 & T2 & V2)|[(t2 & E2 & P2 & Q2 & T2 & V2)|(x2 & E2 & P2 & T2 & V2)]];
  destruct (simple_cases _ H3) as [(E3 & T3 & V3)|[(t3 & E3 & P3 & Q3 & T3 & V3)|(x3 & E3 & P3 & T3 & V3)]];
  cbn [splitting] in *; rewrite E2, E3, V2, V3, T2; try rewrite T3; unfold assign; try rewrite T2; try rewrite T3; try rewrite Q2; try rewrite Q3;
  cbn [app sdedup shortest fold_left truthy fst snd settle smem existsb]; try reflexivity; try (destruct mv; reflexivity).

  unfold sdedup. cbn [sdedup_from smem existsb orb]. rewrite orb_false_r. destruct (String.eqb_spec x3 x2) as [->|N]; cbn [shortest fold_left]; reflexivity.
Qed.

Lemma found_nil : found [] ([], []).
Proof. constructor; cbn; intros; try discriminate; contradiction. Qed.

Lemma settle_found l mv a b : found l mv ->
  (forall t, a = TConst t \/ b = TConst t -> proper t) -> (forall x, a = TVar x \/ b = TVar x -> x <> "") ->
  (forall t u, a = TConst t -> b = TConst u -> t = u) ->
  found (l ++ [(a, b)]) (settle a b mv).
Proof.
  intros [F1 F2 F3 F4 F5 F6] Pc Pv Cc.
  assert (L : forall p, In p l -> In p (l ++ [(a, b)])) by (intros; apply in_or_app; auto).
  assert (N : In (a, b) (l ++ [(a, b)])) by (apply in_or_app; right; left; reflexivity).
  assert (I : forall p, In p (l ++ [(a, b)]) -> In p l \/ p = (a, b)).
  { intros p H. apply in_app_or in H. destruct H as [H|[H|[]]]; auto. }
  assert (S1 : forall x, dget (snd mv) x <> None -> dget (snd (settle a b mv)) x <> None).
  { intros x H. destruct a, b; cbn [settle snd]; auto using dset_some. destruct (String.eqb x0 x1); exact H. }
  assert (S2 : forall x, dget (fst mv) x <> None -> dget (fst (settle a b mv)) x <> None).
  { intros x H. destruct a, b; cbn [settle fst]; auto using dset_some. destruct (String.eqb x0 x1); cbn [fst]; auto using dset_some. }
  constructor.
  - intros x u H.
    assert (K : dget (snd mv) x = Some u \/ exists t, u = VStr t /\ ((a, b) = (TConst t, TVar x) \/ (a, b) = (TVar x, TConst t))).
    { destruct a as [|t|y], b as [|t'|y']; cbn [settle snd] in H; auto.
      - rewrite dget_dset in H. destruct (String.eqb_spec y' x) as [->|_]; [|auto]. injection H as <-. right. exists t. auto.
      - rewrite dget_dset in H. destruct (String.eqb_spec y x) as [->|_]; [|auto]. injection H as <-. right. exists t'. auto.
      - destruct (String.eqb y y') in H; auto. }
    destruct K as [K|(t & -> & K)].
    + destruct (F1 _ _ K) as (t & E & P & J). exists t. split; [exact E|]. split; [exact P|]. destruct J; auto.
    + exists t. split; [reflexivity|]. split.
      * apply Pc. destruct K as [K|K]; injection K as -> ->; auto.
      * destruct K as [K|K]; rewrite <- K; auto.
  - intros x z H.
    assert (K : dget (fst mv) x = Some z \/ (z = x /\ ((a, b) = (TVar x, TBlank) \/ (a, b) = (TBlank, TVar x) \/ (a, b) = (TVar x, TVar x))) \/
                exists c d, (a, b) = (TVar c, TVar d) /\ (x = c \/ x = d) /\ z = shorter tie d c /\ c <> d).
    { destruct a as [|t|y], b as [|t'|y']; cbn [settle fst] in H; auto.
      - rewrite dget_dset in H. destruct (String.eqb_spec y' x) as [->|_]; [|auto]. injection H as <-. right; left; split; auto.
      - rewrite dget_dset in H. destruct (String.eqb_spec y x) as [->|_]; [|auto]. injection H as <-. right; left; split; auto.
      - destruct (String.eqb_spec y y') as [->|Nq]; cbn [fst] in H.
        + rewrite dget_dset in H. destruct (String.eqb_spec y' x) as [->|_]; [|auto]. injection H as <-. right; left; split; auto.
        + rewrite !dget_dset in H. destruct (String.eqb_spec y x) as [->|_].
          * injection H as <-. right. right. exists x, y'. split; auto.
          * destruct (String.eqb_spec y' x) as [->|_]; [|auto]. injection H as <-. right. right. exists y, x. split; auto. }
    destruct K as [K|[(-> & K)|(c & d & K & X & Z & Nq)]].
    + destruct (F2 _ _ K) as (P & J). split; [exact P|]. destruct J as [(Ez & J)|(c & d & J & R)]; [left; split; [exact Ez|]; intuition|right; exists c, d; auto].
    + split.
      * apply Pv. destruct K as [K|[K|K]]; injection K as -> ->; auto.
      * left. split; [reflexivity|]. destruct K as [K|[K|K]]; rewrite <- K; auto.
    + split.
      * apply Pv. injection K as -> ->. destruct X as [->| ->]; auto.
      * right. exists c, d. rewrite <- K. auto.
  - intros t x H. destruct (I _ H) as [H'|H']; [apply S1; exact (F3 _ _ H')|]. injection H' as <- <-. cbn [settle snd]. rewrite dget_dset, String.eqb_refl. discriminate.
  - intros t x H. destruct (I _ H) as [H'|H']; [apply S1; exact (F4 _ _ H')|]. injection H' as <- <-. cbn [settle snd]. rewrite dget_dset, String.eqb_refl. discriminate.
  - intros x y H. destruct (I _ H) as [H'|H'].
    + destruct (F5 _ _ H'). split; apply S2; assumption.
    + injection H' as <- <-. cbn [settle]. destruct (String.eqb_spec x y) as [->|Nq]; cbn [fst].
      * rewrite dget_dset, String.eqb_refl. split; discriminate.
      * rewrite !dget_dset, !String.eqb_refl. split; [discriminate|]. destruct (String.eqb x y); discriminate.
  - intros t u H. destruct (I _ H) as [H'|H']; [exact (F6 _ _ H')|]. injection H' as <- <-. auto.
Qed.

Lemma simple_term s : simple s -> (forall t, tm s = TConst t -> proper t) /\ (forall x, tm s = TVar x -> x <> "").
Proof. intros [| | t P | x P]; cbn [tm vvar vvals]; split; intros; try discriminate; congruence. Qed.

Theorem match_found slots : (forall p, In p slots -> simple (snd p)) -> forall l mv mv', found l mv ->
  match_plain tie slots d3 mv = Ok mv' -> found (l ++ pairs slots) mv'.
Proof.
  induction slots as [|[n s] slots IH]; intros Hs l mv mv' F H.
  - cbn in H. injection H as <-. cbn. rewrite app_nil_r. exact F.
  - cbn [match_plain] in H. cbn zeta in H.
    destruct (truthy (vvals (splitting s)) && truthy (vvals (part_of d3 n)) && negb (val_eqb (vvals (splitting s)) (vvals (part_of d3 n)))) eqn:C; [discriminate|].
    assert (Hn : simple s) by exact (Hs (n, s) (or_introl eq_refl)).
    rewrite assign_settle in H; [|exact (simple_splitting _ Hn)|exact (D3 n)]. rewrite tm_splitting in H.
    change (pairs ((n, s) :: slots)) with ((tm (Some (part_of d3 n)), tm s) :: pairs slots).
    change (?x :: ?y) with ([x] ++ y). rewrite app_assoc.
    refine (IH (fun p Hp => Hs p (or_intror Hp)) _ _ _ (settle_found _ _ _ _ F _ _ _) H).
    + intros t E. destruct (simple_term _ Hn), (simple_term _ (D3 n)). destruct E; auto.
    + intros t E. destruct (simple_term _ Hn), (simple_term _ (D3 n)). destruct E; auto.
    + intros t u E1 E2. destruct (simple_cases _ Hn) as [(X & _)|[(t2 & X & _ & Q2 & T2 & _)|(? & X & _)]]; rewrite X in E2; try discriminate.
      destruct (simple_cases _ (D3 n)) as [(Y & _)|[(t3 & Y & _ & Q3 & T3 & _)|(? & Y & _)]]; rewrite Y in E1; try discriminate.
      injection E1 as ->. injection E2 as ->. cbn [splitting] in Q3, T3. rewrite T2, T3, Q2, Q3 in C. cbn [andb negb] in C. apply negb_false_iff in C. cbn [val_eqb] in C. apply String.eqb_eq in C. auto.
Qed.
End Found.

(** ** The substitution unifies and is most general *)

Definition side_vars (l : list term) : string -> Prop := fun x => In (TVar x) l.
(** The conditions under which a test of the second rule and what it meets are made the same.  Each
    variable of the second rule meets one thing; it is the longer name; a variable of the first rule that
    meets a constant meets nothing else. *)
Record agreeable (l : list (term * term)) : Prop := MkAgree {
  ag_apart : forall x a b, In (TVar x, b) l -> ~ In (a, TVar x) l;
  ag_once : forall y a a', In (a, TVar y) l -> In (a', TVar y) l -> a = a';
  ag_short : forall x y, In (TVar x, TVar y) l -> (String.length x < String.length y)%nat;
  ag_const : forall x c b, In (TVar x, TConst c) l -> In (TVar x, b) l -> b = TBlank \/ b = TConst c }.

Theorem unifies tie l mv : found tie l mv -> agreeable l -> forall a b, In (a, b) l -> a <> TBlank -> b <> TBlank ->
  subst_term mv a = subst_term mv b.
Proof.
  intros [F1 F2 F3 F4 F5 F6] [A1 A2 A3 A4] a b H Na Nb. destruct a as [|t|x]; [congruence| |]; destruct b as [|t'|y]; try congruence; cbn [subst_term].
  - f_equal. exact (F6 _ _ H).
  - destruct (dget (snd mv) y) as [u|] eqn:E; [|exact (False_ind _ (F3 _ _ H E))].
    destruct (F1 _ _ E) as (t' & -> & _ & [J|J]); [|exact (False_ind _ (A1 _ _ _ J H))].
    exact (A2 _ _ _ H J).
  - destruct (dget (snd mv) x) as [u|] eqn:E; [|exact (False_ind _ (F4 _ _ H E))].
    destruct (F1 _ _ E) as (t & -> & _ & [J|J]); [exact (False_ind _ (A1 _ _ _ H J))|].
    destruct (A4 _ _ _ H J) as [K|K]; [discriminate|]. exact K.
  - assert (E1 : dget (snd mv) x = None).
    { destruct (dget (snd mv) x) as [u|] eqn:E; [|reflexivity]. exfalso.
      destruct (F1 _ _ E) as (t & -> & _ & [J|J]); [exact (A1 _ _ _ H J)|]. destruct (A4 _ _ _ J H); discriminate. }
    assert (E2 : dget (snd mv) y = None).
    { destruct (dget (snd mv) y) as [u|] eqn:E; [|reflexivity]. exfalso.
      destruct (F1 _ _ E) as (t & -> & _ & [J|J]); [|exact (A1 _ _ _ J H)]. discriminate (A2 _ _ _ H J). }
    rewrite E1, E2. f_equal. destruct (F5 _ _ H) as [Hx Hy]. unfold image.
    assert (Sh : forall a b, In (TVar a, TVar b) l -> shorter tie b a = a).
    { intros a b K. unfold shorter. rewrite (proj2 (Nat.compare_gt_iff _ _) (A3 _ _ K)). reflexivity. }
    destruct (dget (fst mv) x) as [z|] eqn:Ex; [|congruence]. destruct (dget (fst mv) y) as [z'|] eqn:Ey; [|congruence].
    assert (Zx : z = x).
    { destruct (F2 _ _ Ex) as (_ & [(Z & _)|(a & b & J & X & Z & _)]); [exact Z|].
      destruct X as [->| ->]; [rewrite (Sh _ _ J) in Z; exact Z|exact (False_ind _ (A1 _ _ _ H J))]. }
    assert (Zy : z' = x).
    { destruct (F2 _ _ Ey) as (_ & [(Z & J)|(a & b & J & X & Z & _)]).
      - destruct J as [J|[J|J]].
        + exact (False_ind _ (A1 _ _ _ J H)).
        + discriminate (A2 _ _ _ H J).
        + exact (False_ind _ (A1 _ _ _ J H)).
      - destruct X as [->| ->]; [exact (False_ind _ (A1 _ _ _ J H))|]. rewrite (Sh _ _ J) in Z. pose proof (A2 _ _ _ H J) as Q. injection Q as ->. exact Z. }
    congruence.
Qed.

(** What a term stands for. *)
Definition eval (f : string -> string) (a : term) : option string :=
  match a with TBlank => None | TConst t => Some t | TVar x => Some (f x) end.
Theorem most_general tie l mv f : found tie l mv ->
  (forall a b, In (a, b) l -> a <> TBlank -> b <> TBlank -> eval f a = eval f b) ->
  forall a, eval f (subst_term mv a) = eval f a.
Proof.
  intros [F1 F2 F3 F4 F5 F6] H a. destruct a as [|t|x]; [reflexivity|reflexivity|]. cbn [subst_term eval].
  destruct (dget (snd mv) x) as [u|] eqn:E.
  - destruct (F1 _ _ E) as (t & -> & _ & J). cbn [eval]. destruct J as [J|J]; apply H in J; try discriminate; cbn in J; congruence.
  - cbn [eval]. unfold image. destruct (dget (fst mv) x) as [z|] eqn:Ez; [|reflexivity].
    destruct (F2 _ _ Ez) as (_ & [(-> & _)|(a & b & J & X & Z & _)]); [reflexivity|].
    apply H in J; try discriminate. cbn in J. injection J as J.
    assert (f (shorter tie b a) = f a /\ f a = f b) as [K1 K2].
    { split; [|exact J]. unfold shorter. destruct (Nat.compare _ _); [destruct (tie b a)| |]; congruence. }
    f_equal. destruct X as [->| ->]; congruence.
Qed.
Lemma eval_subst f mv : (forall x u, dget (snd mv) x = Some u -> exists t, u = VStr t /\ proper t) ->
  exists g, forall a, eval f (subst_term mv a) = eval g a.
Proof.
  intros T. exists (fun x => match dget (snd mv) x with Some (VStr t) => t | _ => f (image (fst mv) x) end).
  intros [|t|x]; [reflexivity|reflexivity|]. cbn [subst_term eval]. destruct (dget (snd mv) x) as [u|] eqn:E; [|reflexivity].
  destruct (T _ _ E) as (t & -> & _). reflexivity.
Qed.
Lemma found_tame tie l mv : found tie l mv -> (forall a b x, In (a, b) l -> a = TVar x \/ b = TVar x -> x <> "") -> tame mv.
Proof.
  intros [F1 F2 _ _ _ _] P. split.
  - intros x u E. destruct (F1 _ _ E) as (t & ? & ? & _). eauto.
  - intros x y E. destruct (F2 _ _ E) as (N & [(-> & _)|(a & b & J & X & -> & _)]); [exact N|].
    unfold shorter. destruct (Nat.compare _ _); [destruct (tie b a)| |]; eauto.
Qed.
