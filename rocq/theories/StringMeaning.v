(** What createchunkdict and makechunk make of the pairs that were read. *)
From Verif Require Import Base BaseFacts Chunks ChunkFacts DecMem Buffers Productions TypeFacts ModifyFacts FanFacts Strings StringSpec StringRead.
From Verif Require EnvFacts.
Local Open Scope string_scope.
Arguments hval_eqb : simpl never.
Arguments hash_value : simpl nomatch.
Arguments val_eqb : simpl nomatch.

(** ** Sayings as functions *)

Definition unq (s : string) : string := if starts_quote s then middle s else s.

Lemma starts_quote_iff s : starts_quote s = true <-> begins (one_of_chars quotes) s.
Proof.
  destruct s as [|c s]; [split; [discriminate|intros []]|]. cbn [begins starts_quote].
  rewrite quote_cases, orb_true_iff, !Ascii.eqb_eq. tauto.
Qed.

Lemma butlast_snoc s q : butlast (s ++ String q "") = s.
Proof.
  induction s as [|c s IH]; [reflexivity|]. rewrite cons_app_s. cbn [butlast].
  destruct (s ++ String q "") as [|d u] eqn:E; [destruct s; discriminate|]. rewrite IH. reflexivity.
Qed.
Lemma snoc_cases s : s = "" \/ exists t q, s = t ++ String q "".
Proof.
  induction s as [|c s [->|(t & q & ->)]]; [left; reflexivity|right; exists "", c; reflexivity|].
  right. exists (String c t), q. reflexivity.
Qed.

Lemma unquoted_iff s t : unquoted s t <-> t = unq s.
Proof.
  unfold unq. split.
  - intros H. inversion H as [s0 Hb|q Hq|q s0 q' Hq]; subst.
    + destruct (starts_quote t) eqn:E; [|reflexivity]. apply starts_quote_iff in E. contradiction.
    + rewrite (proj2 (starts_quote_iff (String q "")) Hq). reflexivity.
    + rewrite (proj2 (starts_quote_iff (String q (t ++ String q' ""))) Hq). cbn [middle]. rewrite butlast_snoc. reflexivity.
  - intros ->. destruct (starts_quote s) eqn:E.
    + apply starts_quote_iff in E. destruct s as [|c s]; [destruct E|]. cbn [middle].
      destruct (snoc_cases s) as [->|(u & q & ->)]; [apply unquoted_one; exact E|]. rewrite butlast_snoc. apply unquoted_both. exact E.
    + apply unquoted_none. rewrite <- starts_quote_iff. congruence.
Qed.

Definition value_of (names : dict chunk) (v : written) : option value :=
  match v with
  | WPlain s => Some (match dget names s with Some c => VChunk c | None => VStr s end)
  | WQuoted _ s => Some (VStr s)
  | WMark MGreater s => Some (VStr (">" ++ s))
  | WMark MLess s => Some (VStr ("<" ++ s))
  | WMark MGreaterVar _ => Some (VStr ">")
  | WMark MLessVar _ => Some (VStr "<")
  | _ => None
  end.
Definition var_of (v : written) : option string :=
  match v with
  | WMark MVar s => Some (unq s)
  | WMark MGreaterVar s | WMark MLessVar s => Some s
  | _ => None
  end.
Definition negval_of (v : written) : option value :=
  match v with WMark MNeg s => Some (VStr (unq s)) | _ => None end.
Definition negvar_of (v : written) : option string :=
  match v with WMark MNegvar s => Some (unq s) | _ => None end.

Lemma says_value_iff names v x : says_value names v x <-> value_of names v = Some x.
Proof.
  split.
  - intros H. inversion H; subst; cbn [value_of]; try reflexivity.
    + rewrite H0. reflexivity.
    + rewrite H0. reflexivity.
  - destruct v as [s|m s|q s]; cbn [value_of].
    + intros H. injection H as <-. destruct (dget names s) eqn:E; [apply says_name|apply says_plain]; exact E.
    + destruct m; intros H; try discriminate; injection H as <-; constructor.
    + intros H. injection H as <-. constructor.
Qed.
Lemma says_var_iff v x : says_var v x <-> var_of v = Some x.
Proof.
  split.
  - intros H. inversion H; subst; cbn [var_of]; try reflexivity. apply unquoted_iff in H0. subst. reflexivity.
  - destruct v as [s|m s|q s]; cbn [var_of]; try discriminate.
    destruct m; intros H; try discriminate; injection H as <-; constructor. apply unquoted_iff. reflexivity.
Qed.
Lemma says_negval_iff v x : says_negval v x <-> negval_of v = Some x.
Proof.
  split.
  - intros H. inversion H; subst; cbn [negval_of]. apply unquoted_iff in H0. subst. reflexivity.
  - destruct v as [s|m s|q s]; cbn [negval_of]; try discriminate.
    destruct m; intros H; try discriminate; injection H as <-; constructor. apply unquoted_iff. reflexivity.
Qed.
Lemma says_negvar_iff v x : says_negvar v x <-> negvar_of v = Some x.
Proof.
  split.
  - intros H. inversion H; subst; cbn [negvar_of]. apply unquoted_iff in H0. subst. reflexivity.
  - destruct v as [s|m s|q s]; cbn [negvar_of]; try discriminate.
    destruct m; intros H; try discriminate; injection H as <-; constructor. apply unquoted_iff. reflexivity.
Qed.

Definition oadd {A} (add : A -> list A -> list A) (o : option A) (l : list A) : list A :=
  match o with Some a => add a l | None => l end.

Definition well_written (v : written) : Prop := exists t, writes v t.

Lemma add_part_of names v t :
  well_written v ->
  add_part names (part_of v) t =
  MkParts (oadd set_add (value_of names v) (pvals t)) (oadd sadd (var_of v) (pvars t))
          (oadd set_add (negval_of v) (pnegvals t)) (oadd sadd (negvar_of v) (pnegvars t)).
Proof.
  intros (x & Hw). destruct t as [a b c d]. inversion Hw as [s Hs Ha|m g s Hg Hs Ha|q s Hq Ha]; subst; cbn [part_of].
  - cbn [add_part value_of var_of negval_of negvar_of oadd]. assert (E : starts_quote x = false).
    { destruct (starts_quote x) eqn:E; [|reflexivity]. apply starts_quote_iff in E. destruct x as [|y x]; [destruct E|].
      apply all_cons in Ha. destruct Ha as [Ha _]. apply var_iff in Ha. apply quote_char_iff in E.
      rewrite (quote_var y E) in Ha. discriminate. }
    rewrite E. reflexivity.
  - destruct m; reflexivity.
  - cbn [add_part value_of var_of negval_of negvar_of oadd].
    rewrite (proj2 (starts_quote_iff (String q (s ++ String q ""))) Hq). cbn [middle]. rewrite butlast_snoc. reflexivity.
Qed.

(** ** Sets *)

Lemma set_mem_iff v l : set_mem v l = true <-> exists w, In w l /\ hash_value w = hash_value v.
Proof.
  unfold set_mem. rewrite existsb_exists. split; intros (w & Hw & H); exists w; (split; [exact Hw|]).
  - apply key_eqb_iff. exact H.
  - apply key_eqb_iff in H. exact H.
Qed.

Definition hdistinct (l : list value) : Prop := NoDup (map hash_value l).

Lemma set_add_In v l x : In x (set_add v l) -> In x l \/ x = v.
Proof. unfold set_add. destruct (set_mem v l); [auto|]. rewrite in_app_iff. cbn [In]. intuition auto. Qed.
Lemma set_add_keep v l x : In x l -> In x (set_add v l).
Proof. unfold set_add. destruct (set_mem v l); [auto|]. intros H. apply in_app_iff. auto. Qed.
Lemma set_add_has v l : exists w, In w (set_add v l) /\ hash_value w = hash_value v.
Proof.
  unfold set_add. destruct (set_mem v l) eqn:E; [apply set_mem_iff in E; exact E|].
  exists v. split; [apply in_app_iff; right; left; reflexivity|reflexivity].
Qed.
Lemma NoDup_snoc {A} (l : list A) a : NoDup l -> ~ In a l -> NoDup (app l [a]).
Proof.
  intros Hn Ha. induction Hn as [|b l Hb Hn IH]; [constructor; [intros []|constructor]|].
  cbn [app]. constructor.
  - rewrite in_app_iff. cbn [In]. intros [H|[->|[]]]; [contradiction|]. apply Ha. left. reflexivity.
  - apply IH. intros H. apply Ha. right. exact H.
Qed.
Lemma set_add_distinct v l : hdistinct l -> hdistinct (set_add v l).
Proof.
  unfold hdistinct, set_add. intros H. destruct (set_mem v l) eqn:E; [exact H|]. rewrite map_app. apply NoDup_snoc; [exact H|].
  intros Hin. apply in_map_iff in Hin. destruct Hin as (w & Hw & Hl).
  assert (set_mem v l = true) by (apply set_mem_iff; eauto). congruence.
Qed.
Lemma sadd_In x l y : In y (sadd x l) <-> In y l \/ y = x.
Proof.
  unfold sadd. destruct (smem x l) eqn:E.
  - apply smem_In in E. split; [auto|]. intros [H| ->]; assumption.
  - rewrite in_app_iff. cbn [In]. intuition auto.
Qed.
Lemma sadd_NoDup x l : NoDup l -> NoDup (sadd x l).
Proof.
  unfold sadd. destruct (smem x l) eqn:E; [auto|]. intros H. apply NoDup_snoc; [exact H|].
  intros Hin. apply smem_In in Hin. congruence.
Qed.

(** ** What is gathered *)

Definition saidf {A} (f : written -> option A) (ps : list (string * written)) (n : string) (a : A) : Prop :=
  exists v, In (n, v) ps /\ f v = Some a.

Definition strings_only (l : list value) : Prop := forall v, In v l -> exists s, v = VStr s.

Record parts_say (names : dict chunk) (ps : list (string * written)) (n : string) (t : parts) : Prop := {
  ps_val1 : forall v, In v (pvals t) -> saidf (value_of names) ps n v;
  ps_val2 : forall v, saidf (value_of names) ps n v -> exists w, In w (pvals t) /\ hash_value w = hash_value v;
  ps_val3 : hdistinct (pvals t);
  ps_var : forall x, In x (pvars t) <-> saidf var_of ps n x;
  ps_var3 : NoDup (pvars t);
  ps_negval : forall v, In v (pnegvals t) <-> saidf negval_of ps n v;
  ps_negvar : forall x, In x (pnegvars t) <-> saidf negvar_of ps n x }.

Lemma saidf_snoc {A} (f : written -> option A) ps n m v a :
  saidf f (app ps [(m, v)]) n a <-> saidf f ps n a \/ (m = n /\ f v = Some a).
Proof.
  unfold saidf. split.
  - intros (w & Hw & E). apply in_app_iff in Hw. destruct Hw as [Hw|[Hw|[]]]; [left; eauto|]. injection Hw as -> ->. auto.
  - intros [(w & Hw & E)|[-> E]]; [exists w|exists v]; (split; [apply in_app_iff; cbn [In]; auto|exact E]).
Qed.

Lemma oadd_string (o : option value) (l : list value) x :
  (forall v, o = Some v -> exists s, v = VStr s) ->
  In x (oadd set_add o l) <-> In x l \/ o = Some x.
Proof.
  intros Ho. destruct o as [v|]; cbn [oadd]; [|split; [auto|intros [H|H]; [exact H|discriminate]]].
  destruct (Ho v eq_refl) as (s & ->). unfold set_add. destruct (set_mem (VStr s) l) eqn:E.
  - apply set_mem_iff in E. destruct E as (w & Hw & Eh). assert (w = VStr s).
    { destruct w as [| |t|c]; try discriminate. change (HStr t = HStr s) in Eh. congruence. }
    subst w. split; [auto|]. intros [H|H]; [exact H|]. injection H as <-. exact Hw.
  - rewrite in_app_iff. cbn [In]. split; [intros [H|[<-|[]]]; auto|intros [H|H]; [auto|injection H as <-; auto]].
Qed.
Lemma negval_string v x : negval_of v = Some x -> exists s, x = VStr s.
Proof. destruct v as [s|m s|q s]; cbn [negval_of]; try discriminate. destruct m; try discriminate. intros H. injection H as <-. eauto. Qed.

Lemma oadd_sadd (o : option string) l x : In x (oadd sadd o l) <-> In x l \/ o = Some x.
Proof.
  destruct o as [y|]; cbn [oadd]; [|split; [auto|intros [H|H]; [exact H|discriminate]]].
  rewrite sadd_In. split; intros [H|H]; auto; right; congruence.
Qed.

Lemma parts_say_step names ps n t v :
  parts_say names ps n t -> well_written v ->
  parts_say names (app ps [(n, v)]) n (add_part names (part_of v) t).
Proof.
  intros [H1 H2 H3 H4 H5 H6 H7] Hw. rewrite (add_part_of names v t Hw). constructor; cbn [pvals pvars pnegvals pnegvars].
  - intros x Hx. apply saidf_snoc. destruct (value_of names v) as [y|]; cbn [oadd] in Hx; [|left; apply H1; exact Hx].
    apply set_add_In in Hx. destruct Hx as [Hx| ->]; [left; apply H1; exact Hx|auto].
  - intros x Hx. apply saidf_snoc in Hx. destruct Hx as [Hx|[_ Hx]].
    + destruct (H2 x Hx) as (w & Hin & E). exists w. split; [|exact E]. destruct (value_of names v); cbn [oadd]; [|exact Hin].
      apply set_add_keep. exact Hin.
    + rewrite Hx. cbn [oadd]. apply set_add_has.
  - destruct (value_of names v); cbn [oadd]; [apply set_add_distinct; exact H3|exact H3].
  - intros x. rewrite oadd_sadd, H4, saidf_snoc. tauto.
  - destruct (var_of v); cbn [oadd]; [apply sadd_NoDup; exact H5|exact H5].
  - intros x. rewrite oadd_string by (intros y; apply negval_string). rewrite H6, saidf_snoc. tauto.
  - intros x. rewrite oadd_sadd, H7, saidf_snoc. tauto.
Qed.

Lemma no_parts_say names ps n : ~ named ps n -> parts_say names ps n no_parts.
Proof.
  intros H. assert (Hn : forall A (f : written -> option A) a, ~ saidf f ps n a).
  { intros A f a (v & Hin & _). apply H. unfold named. apply in_map_iff. exists (n, v). auto. }
  constructor; cbn [no_parts pvals pvars pnegvals pnegvars]; try (intros x; split; [intros []|intros Hx; elim (Hn _ _ _ Hx)]).
  - intros v [].
  - intros v Hv. elim (Hn _ _ _ Hv).
  - constructor.
  - constructor.
Qed.

Lemma parts_say_other names ps n m v t : m <> n -> parts_say names ps n t -> parts_say names (app ps [(m, v)]) n t.
Proof.
  intros Hn [H1 H2 H3 H4 H5 H6 H7].
  assert (Hs : forall A (f : written -> option A) a, saidf f (app ps [(m, v)]) n a <-> saidf f ps n a).
  { intros A f a. rewrite saidf_snoc. tauto. }
  constructor; auto.
  - intros x Hx. apply Hs. auto.
  - intros x Hx. apply Hs in Hx. auto.
  - intros x. rewrite Hs. apply H4.
  - intros x. rewrite Hs. apply H6.
  - intros x. rewrite Hs. apply H7.
Qed.

Lemma gather_snoc names l p :
  gather names (app l [p]) =
  dset (gather names l) (fst p)
    (add_part names (snd p) (match dget (gather names l) (fst p) with Some t => t | None => no_parts end)).
Proof. unfold gather. rewrite fold_left_app. reflexivity. Qed.

Lemma parts_of_app a b : parts_of (app a b) = app (parts_of a) (parts_of b).
Proof. apply map_app. Qed.

Lemma named_snoc ps m v n : named (app ps [(m, v)]) n <-> named ps n \/ m = n.
Proof. unfold named. rewrite map_app, in_app_iff. cbn [map In fst]. intuition auto. Qed.

Definition all_written (ps : list (string * written)) : Prop := forall n v, In (n, v) ps -> well_written v.

Theorem gather_spec names ps :
  all_written ps ->
  NoDup (dkeys (gather names (parts_of ps))) /\
  forall n, match dget (gather names (parts_of ps)) n with
            | None => ~ named ps n
            | Some t => named ps n /\ parts_say names ps n t
            end.
Proof.
  induction ps as [|[m v] ps IH] using rev_ind; intros Hw.
  - split; [constructor|]. intros n H. exact H.
  - destruct IH as [Hk IH]; [intros n x H; apply (Hw n x); apply in_app_iff; auto|].
    assert (Hv : well_written v) by (apply (Hw m v); apply in_app_iff; right; left; reflexivity).
    rewrite parts_of_app. change (parts_of [(m, v)]) with [(m, part_of v)]. rewrite gather_snoc. cbn [fst snd].
    set (D := gather names (parts_of ps)) in *. split.
    + rewrite dkeys_dset. unfold dmem. destruct (dget D m) eqn:E; [exact Hk|]. apply NoDup_snoc; [exact Hk|].
      apply dget_None. exact E.
    + intros n. rewrite dget_dset. destruct (String.eqb_spec m n) as [->|Hn].
      * specialize (IH n). split; [apply named_snoc; auto|]. apply parts_say_step; [|exact Hv].
        destruct (dget D n) as [t|]; [apply IH|apply no_parts_say; exact IH].
      * specialize (IH n). destruct (dget D n) as [t|].
        -- split; [apply named_snoc; left; apply IH|]. apply parts_say_other; [exact Hn|apply IH].
        -- rewrite named_snoc. intros [H|H]; [contradiction|congruence].
Qed.

(** ** Closing a slot *)

Lemma slot_says_value names ps n v : slot_says (says_value names) ps n v <-> saidf (value_of names) ps n v.
Proof. unfold slot_says, saidf. split; intros (x & Hx & E); exists x; (split; [exact Hx|]); apply says_value_iff; exact E. Qed.
Lemma slot_says_var ps n v : slot_says says_var ps n v <-> saidf var_of ps n v.
Proof. unfold slot_says, saidf. split; intros (x & Hx & E); exists x; (split; [exact Hx|]); apply says_var_iff; exact E. Qed.
Lemma slot_says_negval ps n v : slot_says says_negval ps n v <-> saidf negval_of ps n v.
Proof. unfold slot_says, saidf. split; intros (x & Hx & E); exists x; (split; [exact Hx|]); apply says_negval_iff; exact E. Qed.
Lemma slot_says_negvar ps n v : slot_says says_negvar ps n v <-> saidf negvar_of ps n v.
Proof. unfold slot_says, saidf. split; intros (x & Hx & E); exists x; (split; [exact Hx|]); apply says_negvar_iff; exact E. Qed.

Definition conflict_at (names : dict chunk) (ps : list (string * written)) (n : string) : Prop :=
  (exists v w, slot_says (says_value names) ps n v /\ slot_says (says_value names) ps n w /\ key_eqb v w = false) \/
  (exists x y, slot_says says_var ps n x /\ slot_says says_var ps n y /\ x <> y).

Lemma close_spec names ps n t :
  parts_say names ps n t ->
  match close_parts t with
  | Ok w => slot_read names ps n w /\ ~ conflict_at names ps n
  | Err e => e = EActr /\ conflict_at names ps n
  end.
Proof.
  intros [H1 H2 H3 H4 H5 H6 H7]. unfold close_parts. destruct t as [vs xs nvs nxs]; cbn [pvals pvars pnegvals pnegvars] in *.
  assert (Hvc : forall a b l, vs = a :: b :: l -> conflict_at names ps n).
  { intros a b l ->. left. exists a, b. split; [apply slot_says_value, H1; left; reflexivity|].
    split; [apply slot_says_value, H1; right; left; reflexivity|]. apply not_true_iff_false. rewrite key_eqb_iff.
    intros E. inversion H3 as [|? ? Hn _]. apply Hn. left. symmetry. exact E. }
  assert (Hxc : forall a b l, xs = a :: b :: l -> conflict_at names ps n).
  { intros a b l ->. right. exists a, b. split; [apply slot_says_var, H4; left; reflexivity|].
    split; [apply slot_says_var, H4; right; left; reflexivity|]. intros ->.
    inversion H5 as [|? ? Hn _]. apply Hn. left. reflexivity. }
  assert (Hok : (List.length vs <= 1)%nat -> (List.length xs <= 1)%nat ->
     slot_read names ps n (MkVV (match vs with v :: _ => v | [] => VNone end) (match xs with x :: _ => Some x | [] => None end) nvs nxs)
     /\ ~ conflict_at names ps n).
  { intros Lv Lx. split.
    - constructor; cbn [vvals vvar vnegvals vnegvars].
      + destruct vs as [|v vs]; [left|right].
        * split; [|reflexivity]. intros v Hv. apply slot_says_value in Hv. destruct (H2 v Hv) as (w & [] & _).
        * apply slot_says_value, H1. left. reflexivity.
      + destruct xs as [|x xs]; [left|right].
        * split; [|reflexivity]. intros x Hx. apply slot_says_var, H4 in Hx. destruct Hx.
        * exists x. split; [reflexivity|]. apply slot_says_var, H4. left. reflexivity.
      + intros v. rewrite slot_says_negval. apply H6.
      + intros v. rewrite slot_says_negvar. apply H7.
    - intros [(v & w & Hv & Hw & E)|(x & y & Hx & Hy & E)].
      + apply slot_says_value, H2 in Hv. apply slot_says_value, H2 in Hw. destruct Hv as (v' & Hv & Ev), Hw as (w' & Hw & Ew).
        apply not_true_iff_false in E. apply E. apply key_eqb_iff. rewrite <- Ev, <- Ew.
        destruct vs as [|a [|b vs]]; [destruct Hv| |cbn [List.length] in Lv; lia]. destruct Hv as [<-|[]], Hw as [<-|[]]. reflexivity.
      + apply slot_says_var, H4 in Hx. apply slot_says_var, H4 in Hy. apply E.
        destruct xs as [|a [|b xs]]; [destruct Hx| |cbn [List.length] in Lx; lia]. destruct Hx as [<-|[]], Hy as [<-|[]]. reflexivity. }
  destruct vs as [|v [|v' vs]]; [| |split; [reflexivity|exact (Hvc _ _ _ eq_refl)]];
    (destruct xs as [|x [|x' xs]]; [| |split; [reflexivity|exact (Hxc _ _ _ eq_refl)]]; apply Hok; cbn [List.length]; lia).
Qed.

Lemma rmap_close (D : dict parts) :
  (exists d, rmap (fun p => w <- close_parts (snd p) ;; Ok (fst p, w)) D = Ok d /\ dkeys d = dkeys D /\
     forall n, dget d n = match dget D n with Some t => match close_parts t with Ok w => Some w | Err _ => None end | None => None end)
  \/ (exists n t e, In (n, t) D /\ close_parts t = Err e /\ rmap (fun p => w <- close_parts (snd p) ;; Ok (fst p, w)) D = Err e).
Proof.
  induction D as [|[n t] D IH].
  - left. exists []. repeat split.
  - cbn [rmap fst snd]. destruct (close_parts t) as [w|e] eqn:E; cbn [rbind].
    + destruct IH as [(d & Ed & Ek & Eg)|(n' & t' & e & Hin & Hc & He)].
      * left. rewrite Ed. cbn [rbind]. exists ((n, w) :: d). split; [reflexivity|]. split; [cbn [dkeys map fst]; f_equal; exact Ek|].
        intros m. cbn [dget]. destruct (String.eqb n m); [rewrite E; reflexivity|apply Eg].
      * right. exists n', t', e. split; [right; exact Hin|]. split; [exact Hc|]. rewrite He. reflexivity.
    + right. exists n, t, e. split; [left; reflexivity|]. split; [exact E|reflexivity].
Qed.

Lemma conflict_iff names ps : conflict names ps <-> exists n, conflict_at names ps n.
Proof. reflexivity. Qed.

(** The dictionary of slots, before the type is taken out. *)
Lemma dict_spec names ps :
  all_written ps ->
  (~ conflict names ps /\ exists d, rmap (fun p => w <- close_parts (snd p) ;; Ok (fst p, w)) (gather names (parts_of ps)) = Ok d /\
     NoDup (dkeys d) /\ (forall n, In n (dkeys d) <-> named ps n) /\
     (forall n w, dget d n = Some w -> slot_read names ps n w)) \/
  (conflict names ps /\ rmap (fun p => w <- close_parts (snd p) ;; Ok (fst p, w)) (gather names (parts_of ps)) = Err EActr).
Proof.
  intros Hw. destruct (gather_spec names ps Hw) as [Hk Hg]. set (D := gather names (parts_of ps)) in *.
  assert (HD : forall n t, In (n, t) D -> parts_say names ps n t).
  { intros n t Hin. specialize (Hg n). rewrite (dget_NoDup D n t Hk Hin) in Hg. apply Hg. }
  assert (Hd : forall n, In n (dkeys D) <-> named ps n).
  { intros n. specialize (Hg n). destruct (dget D n) as [t|] eqn:E.
    - apply dget_Some_key in E. tauto.
    - apply dget_None in E. tauto. }
  destruct (rmap_close D) as [(d & Ed & Ek & Eg)|(n & t & e & Hin & Hc & He)].
  - left. assert (Hall : forall n t, In (n, t) D -> exists w, close_parts t = Ok w).
    { intros n t Hin. pose proof (proj1 (EnvFacts.rmap_ok _ _) (ex_intro _ d Ed)) as F. rewrite Forall_forall in F.
      destruct (F (n, t) Hin) as (b & Hb). cbn [snd] in Hb. destruct (close_parts t) as [w|]; [eauto|discriminate]. }
    split.
    + intros (n & Hc). destruct (dget D n) as [t|] eqn:E.
      * pose proof (dget_In _ _ E) as Hin. destruct (Hall n t Hin) as (w & Ew). pose proof (close_spec names ps n t (HD n t Hin)) as Hs.
        rewrite Ew in Hs. apply Hs. exact Hc.
      * specialize (Hg n). rewrite E in Hg. destruct Hc as [(v & _ & (x & Hx & _) & _)|(v & _ & (x & Hx & _) & _)];
          apply Hg; unfold named; apply in_map_iff; exists (n, x); auto.
    + exists d. split; [exact Ed|]. split; [rewrite Ek; exact Hk|]. split; [intros n; rewrite Ek; apply Hd|].
      intros n w E. rewrite Eg in E. destruct (dget D n) as [t|] eqn:Et; [|discriminate].
      pose proof (dget_In _ _ Et) as Hin. pose proof (close_spec names ps n t (HD n t Hin)) as Hs.
      destruct (close_parts t) as [w'|]; [|discriminate]. injection E as <-. apply Hs.
  - right. pose proof (close_spec names ps n t (HD n t Hin)) as Hs. rewrite Hc in Hs. destruct Hs as [-> Hs].
    split; [exists n; exact Hs|exact He].
Qed.

(** ** The type *)

Lemma ddel_keys {A} (d : dict A) k n : In n (dkeys (ddel d k)) <-> In n (dkeys d) /\ n <> k.
Proof.
  unfold ddel, dkeys. rewrite !in_map_iff. split.
  - intros ((m & a) & <- & H). apply filter_In in H. cbn [fst] in H. destruct H as [H E].
    apply negb_true_iff, String.eqb_neq in E. split; [exists (m, a); auto|exact E].
  - intros (((m & a) & <- & H) & E). exists (m, a). split; [reflexivity|]. apply filter_In. split; [exact H|].
    apply negb_true_iff, String.eqb_neq. exact E.
Qed.
Lemma ddel_NoDup {A} (d : dict A) k : NoDup (dkeys d) -> NoDup (dkeys (ddel d k)).
Proof.
  unfold ddel, dkeys. intros H. induction d as [|[m a] d IH]; [constructor|]. cbn [map fst] in H. inversion H as [|? ? Hm Hd]; subst.
  cbn [filter fst]. destruct (negb (String.eqb m k)); [|apply IH; exact Hd]. cbn [map fst]. constructor; [|apply IH; exact Hd].
  intros Hin. apply Hm. apply in_map_iff in Hin. destruct Hin as (x & <- & Hx). apply filter_In in Hx. apply in_map. apply Hx.
Qed.

Lemma smem_named ps n : smem n (map fst ps) = true <-> named ps n.
Proof. apply smem_In. Qed.

Lemma pop_type_spec names ps d ty d' :
  (forall n, In n (dkeys d) <-> named ps n) -> NoDup (dkeys d) ->
  (forall n w, dget d n = Some w -> slot_read names ps n w) ->
  pop_type d = (ty, d') ->
  NoDup (dkeys d') /\ (forall n, In n (dkeys d') <-> slot_said ps n) /\
  (forall n w, dget d' n = Some w -> slot_read names ps n w) /\
  (~ named ps "isa" /\ ty = VStr "" \/
   named ps "isa" /\ exists w, slot_read names ps (last (type_slots ps) "") w /\ ty = vvals w).
Proof.
  intros Hk Hd Hr H. unfold pop_type in H. unfold slot_said, type_slots.
  assert (Hget : forall n, (dget d n = None /\ smem n (map fst ps) = false) \/ (exists w, dget d n = Some w /\ smem n (map fst ps) = true)).
  { intros n. destruct (dget d n) as [w|] eqn:E; [right; exists w|left].
    - split; [reflexivity|]. apply smem_named, Hk. apply dget_Some_key in E. exact E.
    - split; [reflexivity|]. apply not_true_iff_false. rewrite smem_named, <- Hk. apply dget_None. exact E. }
  assert (Hdel : forall k n w, dget (ddel d k) n = Some w -> dget d n = Some w).
  { intros k n w. rewrite dget_ddel. destruct (String.eqb n k); [discriminate|auto]. }
  destruct (Hget "isa") as [[E1 N1]|(w1 & E1 & N1)]; rewrite E1 in H; rewrite N1.
  { injection H as <- <-. split; [exact Hd|]. split; [intros n; rewrite Hk; cbn [In]; tauto|]. split; [exact Hr|].
    left. split; [|reflexivity]. rewrite <- smem_named. congruence. }
  assert (Hn : named ps "isa") by (apply smem_named; exact N1).
  destruct (Hget "ISA") as [[E2 N2]|(w2 & E2 & N2)]; rewrite N2;
    rewrite (dget_ddel d "isa" "ISA") in H; cbn [String.eqb Ascii.eqb Bool.eqb] in H; rewrite E2 in H.
  { injection H as <- <-. split; [apply ddel_NoDup; exact Hd|]. split; [intros n; rewrite ddel_keys, Hk; cbn [In]; intuition auto|].
    split; [intros n w Hw; apply Hr; apply Hdel in Hw; exact Hw|]. right. split; [exact Hn|]. exists w1. split; [apply Hr; exact E1|reflexivity]. }
  destruct (Hget "Isa") as [[E3 N3]|(w3 & E3 & N3)]; rewrite N3;
    rewrite (dget_ddel _ "ISA" "Isa"), (dget_ddel d "isa" "Isa") in H; cbn [String.eqb Ascii.eqb Bool.eqb] in H; rewrite E3 in H.
  { injection H as <- <-. split; [do 2 apply ddel_NoDup; exact Hd|].
    split; [intros n; rewrite !ddel_keys, Hk; cbn [In]; intuition auto|].
    split; [intros n w Hw; apply Hr; rewrite dget_ddel in Hw; destruct (String.eqb _ _) in Hw; [discriminate|]; apply Hdel in Hw; exact Hw|].
    right. split; [exact Hn|]. exists w2. split; [apply Hr; exact E2|reflexivity]. }
  injection H as <- <-. split; [do 3 apply ddel_NoDup; exact Hd|].
  split; [intros n; rewrite !ddel_keys, Hk; cbn [In]; intuition auto|].
  split; [intros n w Hw; apply Hr; rewrite dget_ddel in Hw; destruct (String.eqb _ _) in Hw; [discriminate|];
          rewrite dget_ddel in Hw; destruct (String.eqb _ _) in Hw; [discriminate|]; apply Hdel in Hw; exact Hw|].
  right. split; [exact Hn|]. exists w3. split; [apply Hr; exact E3|reflexivity].
Qed.
