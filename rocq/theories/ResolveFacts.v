(** Specification and proofs for check_bound_vars (C33). *)
From Verif Require Import BaseFacts Chunks ChunkSpec ChunkFacts ChunkMatch.
Local Open Scope string_scope.
Arguments hval_eqb : simpl never.
Arguments val_eqb : simpl nomatch.

(** ** Specification *)

(** Values that do not count as content: None, the empty string, a chunk without slots. *)
Inductive blank : value -> Prop :=
| blank_none : blank VNone
| blank_string : blank (VStr "")
| blank_chunk ty : blank (VChunk (MkChunk ty [])).

(** The result carries nothing that would still have to be resolved. *)
Definition ground (ni : bool) (r : vv) : Prop :=
  vvar r = None /\ vnegvars r = [] /\ (ni = true -> vnegvals r = []).

(** The positive part of a slot, resolved. *)
Inductive positive (b : bindings) (w : vv) : value -> Prop :=
| pos_var x v : vvar w = Some x -> x <> "" -> In (x, v) (bpos b) -> positive b w v
| pos_val : (vvar w = None \/ vvar w = Some "") -> ~ blank (vvals w) -> positive b w (vvals w)
| pos_none : (vvar w = None \/ vvar w = Some "") -> blank (vvals w) -> positive b w VNone.

(** What must not hold of the slot afterwards: the negated values and the bound values of the
    negated variables.  Sets identify values that Python identifies as set members. *)
Definition forbids (b : bindings) (w : vv) (u : value) : Prop :=
  In u (vnegvals w) \/ exists x, In x (vnegvars w) /\ In (x, u) (bpos b).

Definition resolves_to (b : bindings) (w r : vv) : Prop :=
  positive b w (vvals r) /\ vvar r = None /\ vnegvars r = [] /\
  (forall u, In u (vnegvals r) -> forbids b w u) /\
  (forall u, forbids b w u -> exists u', In u' (vnegvals r) /\ key_eqb u' u = true).

(** The three reasons to reject a slot. *)
Inductive illegal (b : bindings) (ni : bool) (w : vv) : Prop :=
| ill_unbound x : vvar w = Some x -> x <> "" -> ~ In x (dkeys (bpos b)) -> illegal b ni w
| ill_neg_unbound x : In x (vnegvars w) -> ~ In x (dkeys (bpos b)) -> illegal b ni w
| ill_negation : ni = true -> (vnegvals w <> [] \/ vnegvars w <> []) -> illegal b ni w
| ill_two x v : vvar w = Some x -> x <> "" -> In (x, v) (bpos b) ->
    ~ blank (vvals w) -> val_eqb v (vvals w) = false -> illegal b ni w.

(** Guards: no comparison marks; a variable is not bound to an empty slot; an unbound negated
    variable does not stand alone. *)
Definition no_marks (b : bindings) (w : vv) : Prop :=
  is_relational (vvals w) = false /\
  forall x v, vvar w = Some x -> In (x, v) (bpos b) -> is_relational v = false.
Definition not_empty_bound (b : bindings) (w : vv) : Prop :=
  forall x v, vvar w = Some x -> x <> "" -> In (x, v) (bpos b) -> ~ blank v.
Definition negvars_bound (b : bindings) (ni : bool) (w : vv) : Prop :=
  ni = true \/ (exists x, vvar w = Some x /\ x <> "") \/
  forall x, In x (vnegvars w) -> In x (dkeys (bpos b)).

(** ** Proofs *)

Lemma truthy_blank v : truthy v = true <-> ~ blank v.
Proof.
  destruct v as [| |[|c s]|[ty [|p sl]]]; simpl; split; intros H; try reflexivity; try discriminate;
    try (exfalso; apply H; constructor); intros B; inversion B.
Qed.
Lemma blank_dec v : {blank v} + {~ blank v}.
Proof.
  destruct (truthy v) eqn:E; [right; apply truthy_blank; exact E|].
  left. destruct v as [| |[|c s]|[ty [|p sl]]]; try discriminate; constructor.
Qed.

Lemma cbv_negvars_spec b vs xs : forall acc,
  match cbv_negvars b vs xs acc with
  | Ok l => (forall x, In x xs -> In x (dkeys (bpos b))) /\
            (forall u, In u l -> In u acc \/ exists x, In x xs /\ dget (bpos b) x = Some u) /\
            (forall u, In u acc -> In u l) /\
            (forall x u, In x xs -> dget (bpos b) x = Some u -> exists u', In u' l /\ key_eqb u' u = true)
  | Err e => e = (if vs then EActr else EUnbound) /\ exists x, In x xs /\ ~ In x (dkeys (bpos b))
  end.
Proof.
  induction xs as [|x xs IH]; intros acc; simpl.
  - repeat split; auto; intros; try contradiction.
  - destruct (dget (bpos b) x) as [v|] eqn:E.
    + specialize (IH (set_add v acc)). destruct (cbv_negvars b vs xs (set_add v acc)) as [l|e].
      * destruct IH as (I0 & I1 & I2 & I3). repeat split.
        -- intros y [<-|Hy]; [|auto]. apply (dget_Some_key _ _ E).
        -- intros u Hu. apply I1 in Hu. destruct Hu as [Hu|(y & Hy & Ey)]; [|right; exists y; auto].
           unfold set_add in Hu. destruct (set_mem v acc); [auto|]. apply in_app_or in Hu. destruct Hu as [Hu|[<-|[]]]; [auto|].
           right. exists x. auto.
        -- intros u Hu. apply I2. unfold set_add. destruct (set_mem v acc); [auto|]. apply in_or_app. auto.
        -- intros y u [<-|Hy] Ey; [|eauto]. rewrite E in Ey. injection Ey as <-.
           destruct (set_add_has v acc) as (u' & Hu & Ek). exists u'. auto.
      * destruct IH as [-> (y & Hy & Ny)]. split; [reflexivity|]. exists y. auto.
    + assert (N : ~ In x (dkeys (bpos b))) by (apply dget_None; exact E).
      destruct vs; (split; [reflexivity|exists x; auto]).
Qed.

Lemma neg_fold vs : forall acc,
  let l := fold_left (fun acc v => set_add v acc) vs acc in
  (forall u, In u l -> In u acc \/ In u vs) /\ (forall u, In u acc -> In u l) /\
  (forall u, In u vs -> exists u', In u' l /\ key_eqb u' u = true).
Proof.
  induction vs as [|v vs IH]; intros acc; simpl.
  - repeat split; auto. intros u [].
  - destruct (IH (set_add v acc)) as (I1 & I2 & I3). repeat split.
    + intros u Hu. apply I1 in Hu. destruct Hu as [Hu|Hu]; [|auto].
      unfold set_add in Hu. destruct (set_mem v acc); [auto|]. apply in_app_or in Hu. destruct Hu as [Hu|[<-|[]]]; auto.
    + intros u Hu. apply I2. unfold set_add. destruct (set_mem v acc); [auto|]. apply in_or_app. auto.
    + intros u [<-|Hu]; [|auto]. destruct (set_add_has v acc) as (u' & Hu & Ek). exists u'. auto.
Qed.

Lemma var_truthy_Some o x : var_truthy o = Some x <-> o = Some x /\ x <> "".
Proof. destruct o as [[|c s]|]; simpl; split; intros H; try discriminate; try (destruct H; congruence).
  injection H as <-. split; [reflexivity|discriminate]. Qed.
Lemma var_truthy_None o : var_truthy o = None <-> o = None \/ o = Some "".
Proof. destruct o as [[|c s]|]; simpl; split; intros H; auto; try discriminate. destruct H; discriminate. Qed.

(** Whatever comes out is fully resolved (no guard needed). *)
Theorem resolve_ground b s ni r : check_bound_vars b s ni = Ok r -> ground ni r.
Proof.
  unfold check_bound_vars. intros H.
  inv_ok H. inv_ok H. inv_ok H. inv_ok H. inv_ok H. inv_ok H. inv_ok H.
  assert (Hn : ni = true -> a4 = []).
  { intros ->. destruct (vnegvars (splitting s)); [|discriminate]. destruct (vnegvals (splitting s)); [|discriminate].
    congruence. }
  destruct a0 as [t|]; [destruct (truthy t); [|discriminate]|]; injection H as <-; (split; [reflexivity|split; [reflexivity|]]); simpl; tauto.
Qed.

Lemma combine_same t : is_relational t = false -> truthy t = true -> cbv_combine (Some t) t = Ok t.
Proof. intros H1 H2. simpl. rewrite H1, H2, val_eqb_refl. reflexivity. Qed.
Lemma combine_first t : is_relational t = false -> cbv_combine (Some t) VNone = Ok t.
Proof. intros H1. simpl. reflexivity. Qed.

(** With the guards: exactly the illegal slots are rejected, with ACTRError, and the others are
    resolved. *)
Theorem resolve_exact b s ni :
  NoDup (dkeys (bpos b)) -> no_marks b (splitting s) -> not_empty_bound b (splitting s) ->
  negvars_bound b ni (splitting s) ->
  match check_bound_vars b s ni with
  | Ok r => ~ illegal b ni (splitting s) /\ resolves_to b (splitting s) r
  | Err e => e = EActr /\ illegal b ni (splitting s)
  end.
Proof.
  intros nd. unfold check_bound_vars. generalize (splitting s). clear s. intros w [M1 M2] Hne Hnb.
  assert (Hget : forall x v, In (x, v) (bpos b) <-> dget (bpos b) x = Some v).
  { intros x v. split; [apply dget_NoDup; exact nd|apply dget_In]. }
  (* the negative part *)
  assert (Hneg : forall (pv : bool) (Hpv : pv = true <-> exists x, vvar w = Some x /\ x <> ""),
    match (neg1 <- (match vnegvals w with
           | [] => Ok []
           | nvs => if ni then Err EActr else Ok (fold_left (fun acc v => set_add v acc) nvs [])
           end) ;;
           match vnegvars w with
           | [] => Ok neg1
           | xs => if ni then Err EActr else cbv_negvars b pv xs neg1
           end) with
    | Ok l => ~ (ni = true /\ (vnegvals w <> [] \/ vnegvars w <> [])) /\
              (forall x, In x (vnegvars w) -> In x (dkeys (bpos b))) /\
              (forall u, In u l -> forbids b w u) /\
              (forall u, forbids b w u -> exists u', In u' l /\ key_eqb u' u = true)
    | Err e => e = EActr /\ illegal b ni w
    end).
  { intros pv Hpv.
    assert (Hn1 : match (match vnegvals w with
           | [] => Ok []
           | nvs => if ni then Err EActr else Ok (fold_left (fun acc v => set_add v acc) nvs [])
           end) with
      | Ok l => ~ (ni = true /\ vnegvals w <> []) /\ (forall u, In u l -> In u (vnegvals w)) /\
                (forall u, In u (vnegvals w) -> exists u', In u' l /\ key_eqb u' u = true)
      | Err e => e = EActr /\ illegal b ni w
      end).
    { destruct (vnegvals w) as [|v vs] eqn:Ev.
      - repeat split; auto; [intros [_ H]; congruence|intros u []].
      - destruct ni.
        + split; [reflexivity|]. apply ill_negation; [reflexivity|]. left. rewrite Ev. discriminate.
        + pose proof (neg_fold (v :: vs) []) as (F1 & _ & F3).
          repeat split; [intros [? _]; discriminate| |exact F3]. intros u Hu. apply F1 in Hu. destruct Hu as [[]|]; assumption. }
    destruct (match vnegvals w with [] => Ok [] | _ => _ end) as [l1|e1]; [|exact Hn1].
    destruct Hn1 as (N1 & N2 & N3). cbn [rbind].
    destruct (vnegvars w) as [|x xs] eqn:Ex.
    - repeat split.
      + intros [H1 [H2|H2]]; tauto.
      + intros x [].
      + intros u Hu. left. auto.
      + intros u [Hu|(x & Hx & _)]; [auto|]. rewrite Ex in Hx. destruct Hx.
    - rewrite <- Ex in *. destruct ni.
      + split; [reflexivity|]. apply ill_negation; [reflexivity|]. right. rewrite Ex. discriminate.
      + pose proof (cbv_negvars_spec b pv (vnegvars w) l1) as Hc. destruct (cbv_negvars b pv (vnegvars w) l1) as [l|e].
        * destruct Hc as (C0 & C1 & C2 & C3). repeat split.
          -- intros [H _]. discriminate.
          -- exact C0.
          -- intros u Hu. apply C1 in Hu. destruct Hu as [Hu|(y & Hy & Ey)]; [left; auto|right].
             exists y. split; [exact Hy|]. apply Hget. exact Ey.
          -- intros u [Hu|(y & Hy & Ey)].
             ++ destruct (N3 u Hu) as (u' & Hu' & Ek). exists u'. auto.
             ++ apply (C3 y u Hy). apply Hget. exact Ey.
        * destruct Hc as (-> & y & Hy & Ny). split; [|apply (ill_neg_unbound b false w y Hy Ny)].
          destruct pv; [reflexivity|]. exfalso. destruct Hnb as [H|[H|H]]; [discriminate| |apply Ny, H, Hy].
          apply Hpv in H. discriminate. }
  set (neg1 := match vnegvals w with [] => Ok [] | _ => _ end) in *.
  destruct (var_truthy (vvar w)) as [x|] eqn:Ev.
  - apply var_truthy_Some in Ev. destruct Ev as [Ev Hx].
    specialize (Hneg true (conj (fun _ => ex_intro _ x (conj Ev Hx)) (fun _ => eq_refl))).
    destruct (dget (bpos b) x) as [v|] eqn:Eg.
    + assert (Hin : In (x, v) (bpos b)) by (apply Hget; exact Eg).
      pose proof (M2 x v Ev Hin) as Rv. pose proof (Hne x v Ev Hx Hin) as Av.
      assert (Tv : truthy v = true) by (apply truthy_blank; exact Av).
      set (temp1 := if truthy (vvals w) then Some (vvals w) else None).
      assert (H1 : exists r1, cbv_combine temp1 VNone = Ok r1 /\ (r1 = vvals w /\ ~ blank (vvals w) \/ r1 = VNone /\ blank (vvals w))).
      { unfold temp1. destruct (truthy (vvals w)) eqn:Et.
        - exists (vvals w). split; [reflexivity|]. left. split; [reflexivity|]. apply truthy_blank in Et. tauto.
        - exists VNone. split; [reflexivity|]. right. split; [reflexivity|].
          destruct (blank_dec (vvals w)) as [|Ha]; [assumption|]. exfalso.
          assert (truthy (vvals w) = true) by (apply truthy_blank; exact Ha). congruence. }
      destruct H1 as (r1 & E1 & H1). rewrite E1. cbn [rbind].
      assert (H2 : match cbv_combine (Some v) r1 with Ok r2 => r2 = v /\ ~ (~ blank (vvals w) /\ val_eqb v (vvals w) = false) | Err e => e = EActr /\ illegal b ni w end).
      { destruct H1 as [[-> Ha]|[-> Ha]]; simpl.
        - assert (Tw : truthy (vvals w) = true) by (apply truthy_blank; exact Ha).
          rewrite Rv, M1, Tw. simpl. destruct (val_eqb v (vvals w)) eqn:Ee; simpl.
          + split; [reflexivity|]. intros [_ H]. discriminate.
          + split; [reflexivity|]. apply (ill_two b ni w x v); auto.
        - split; [reflexivity|]. tauto. }
      destruct (cbv_combine (Some v) r1) as [r2|e2]; [|exact H2]. destruct H2 as [-> H2]. cbn [rbind].
      unfold rbind in Hneg at 1. destruct neg1 as [l1|e1]; [|exact Hneg]. cbn [rbind]. rewrite (combine_same v Rv Tv). cbn [rbind].
      destruct (match vnegvars w with [] => Ok l1 | _ => _ end) as [l2|e2]; [|exact Hneg].
      cbn [rbind]. rewrite (combine_same v Rv Tv). cbn [rbind]. rewrite Tv. destruct Hneg as (G1 & G2 & G3 & G4). split.
      * intros I. inversion I as [y Hy _ Ny|y Hy Ny|Hn Hv|y u Hy _ Hu Ha Hd].
        -- assert (y = x) by congruence. subst y. apply Ny. apply (dget_Some_key _ _ Eg).
        -- apply Ny, G2, Hy.
        -- apply G1. auto.
        -- assert (y = x) by congruence. subst y. apply Hget in Hu. assert (u = v) by congruence. subst u. tauto.
      * red. simpl. repeat split; auto. apply (pos_var b w x v Ev Hx Hin).
    + assert (N : ~ In x (dkeys (bpos b))) by (apply dget_None; exact Eg).
      set (temp1 := if truthy (vvals w) then Some (vvals w) else None).
      assert (H1 : exists r1, cbv_combine temp1 VNone = Ok r1) by (unfold temp1; destruct (truthy (vvals w)); eexists; reflexivity).
      destruct H1 as (r1 & E1). rewrite E1. simpl. split; [reflexivity|]. apply (ill_unbound b ni w x Ev Hx N).
  - apply var_truthy_None in Ev.
    assert (Hnov : ~ exists x, vvar w = Some x /\ x <> "") by (intros (x & E & Hx); destruct Ev; congruence).
    specialize (Hneg false (conj (fun H : false = true => False_ind _ (diff_false_true H)) (fun H => False_ind _ (Hnov H)))).
    destruct (truthy (vvals w)) eqn:Et.
    + rewrite (combine_first _ M1). cbn [rbind]. rewrite (combine_same _ M1 Et). cbn [rbind].
      unfold rbind in Hneg at 1. destruct neg1 as [l1|e1]; [|exact Hneg]. cbn [rbind]. rewrite (combine_same _ M1 Et). cbn [rbind].
      destruct (match vnegvars w with [] => Ok l1 | _ => _ end) as [l2|e2]; [|exact Hneg].
      cbn [rbind]. rewrite (combine_same _ M1 Et). cbn [rbind]. rewrite Et. destruct Hneg as (G1 & G2 & G3 & G4). split.
      * intros I. inversion I as [y Hy Hy' Ny|y Hy Ny|Hn Hv|y u Hy Hy' Hu Ha Hd]; [destruct Ev; congruence|apply Ny, G2, Hy|apply G1; auto|destruct Ev; congruence].
      * red. simpl. repeat split; auto. apply pos_val; [exact Ev|]. apply truthy_blank in Et. tauto.
    + simpl. unfold rbind in Hneg at 1. destruct neg1 as [l1|e1]; [|exact Hneg]. simpl.
      destruct (match vnegvars w with [] => Ok l1 | _ => _ end) as [l2|e2]; [|exact Hneg].
      simpl. destruct Hneg as (G1 & G2 & G3 & G4). split.
      * intros I. inversion I as [y Hy Hy' Ny|y Hy Ny|Hn Hv|y u Hy Hy' Hu Ha Hd]; [destruct Ev; congruence|apply Ny, G2, Hy|apply G1; auto|destruct Ev; congruence].
      * red. simpl. repeat split; auto. apply pos_none; [exact Ev|].
        destruct (blank_dec (vvals w)) as [|Ha]; [assumption|]. exfalso.
        assert (truthy (vvals w) = true) by (apply truthy_blank; exact Ha). congruence.
Qed.

(** ** Comparisons with variables *)

Lemma append_length s t : String.length (s ++ t) = (String.length s + String.length t)%nat.
Proof. induction s as [|a s IH]; simpl; [reflexivity|]. rewrite IH. reflexivity. Qed.

(** A slot of the form [>=x] or [<=x] with a bound variable is never resolved. *)
Theorem comparison_rejected b x v m w ni :
  splitting w = MkVV (VStr m) (Some x) (vnegvals (splitting w)) (vnegvars (splitting w)) ->
  m = "<" \/ m = ">" -> x <> "" -> dget (bpos b) x = Some v -> is_relational v = false ->
  exists e, check_bound_vars b w ni = Err e.
Proof.
  intros E Hm Hx Hv Hr.
  assert (T : truthy (VStr m) = true) by (destruct Hm; subst m; reflexivity).
  assert (R : is_relational (VStr m) = true) by (destruct Hm; subst m; reflexivity).
  assert (L : String.length m = 1%nat) by (destruct Hm; subst m; reflexivity).
  assert (Ev : var_truthy (Some x) = Some x) by (apply var_truthy_Some; auto).
  unfold check_bound_vars. rewrite E. cbn [vvals vvar vnegvals vnegvars]. rewrite T, Ev, Hv. cbn [rbind].
  assert (E1 : cbv_combine (Some (VStr m)) VNone = Ok (VStr m)) by reflexivity.
  rewrite E1. cbn [rbind].
  assert (E2 : cbv_combine (Some v) (VStr m) = join_sorted v (VStr m)) by (unfold cbv_combine; rewrite R, orb_true_r; reflexivity).
  rewrite E2. destruct v as [| |s|c]; simpl join_sorted; cbn [rbind]; try (eexists; reflexivity).
  set (j := if String.leb s m then m ++ s else s ++ m).
  assert (Lj : String.length j = S (String.length s)).
  { unfold j. destruct (String.leb s m); rewrite append_length; lia. }
  destruct s as [|a s].
  - match goal with |- exists e, rbind ?u ?f = _ => destruct u; cbn [rbind]; [|eexists; reflexivity] end.
    destruct (cbv_combine (Some (VStr "")) (VStr j)); cbn [rbind]; [|eexists; reflexivity].
    match goal with |- exists e, rbind ?u ?f = _ => destruct u; cbn [rbind]; [|eexists; reflexivity] end.
    destruct (cbv_combine (Some (VStr "")) a0); cbn [rbind]; simpl; eexists; reflexivity.
  - match goal with |- exists e, rbind ?u ?f = _ => destruct u; cbn [rbind]; [|eexists; reflexivity] end.
    assert (E3 : cbv_combine (Some (VStr (String a s))) (VStr j) = Err EActr).
    { unfold cbv_combine. rewrite Hr, andb_false_r.
      assert (Rj : is_relational (VStr j) = false).
      { simpl. apply orb_false_iff. split; apply String.eqb_neq; intros Ej; rewrite Ej in Lj; discriminate. }
      rewrite Rj. simpl orb. assert (Tj : truthy (VStr j) = true) by (destruct j; [discriminate|reflexivity]).
      rewrite Tj. assert (V : val_eqb (VStr (String a s)) (VStr j) = false).
      { destruct (val_eqb (VStr (String a s)) (VStr j)) eqn:V; [|reflexivity]. exfalso.
        assert (Es : String a s = j) by (apply String.eqb_eq; exact V). rewrite <- Es in Lj. simpl in Lj. lia. }
      rewrite V. reflexivity. }
    rewrite E3. cbn [rbind]. eexists; reflexivity.
Qed.
