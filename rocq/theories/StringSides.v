(** The two sides that a rule made from a string yields. *)
From Verif Require Import Base BaseFacts Chunks DecMem Buffers Productions TypeFacts Strings StringSpec StringRead StringMeaning StringChunk StringRule.
Local Open Scope string_scope.

(** What making chunks without a name changes: the name "unnamedchunk", and types grow. *)
Record later (st st' : names_state) : Prop := {
  later_names : forall n, n <> "unnamedchunk" -> dget (nsnames st') n = dget (nsnames st) n;
  later_types : forall t ct, dget (nsreg st) t = Some ct ->
    exists ct', dget (nsreg st') t = Some ct' /\ forall n, In n (ctfields ct) -> In n (ctfields ct') }.

Lemma later_refl st : later st st.
Proof. constructor; [auto|]. intros t ct H. exists ct. auto. Qed.
Lemma later_trans a b c : later a b -> later b c -> later a c.
Proof.
  intros [N1 T1] [N2 T2]. constructor.
  - intros n Hn. rewrite (N2 n Hn). apply N1. exact Hn.
  - intros t ct H. destruct (T1 t ct H) as (ct1 & H1 & I1). destruct (T2 t ct1 H1) as (ct2 & H2 & I2). exists ct2. auto.
Qed.

Lemma chunk_of_pairs_later st ps st' c :
  all_written ps -> chunk_of_pairs st "" (parts_of ps) = Ok (st', c) -> later st st'.
Proof.
  intros Hw H. destruct (chunk_of_pairs_sound st "" ps st' c Hw H) as (_ & Hs & En & Hr & ct' & Ect & Ef). constructor.
  - intros n Hn. rewrite En. change (stored_name "") with "unnamedchunk". apply dget_dset_neq. congruence.
  - intros t ct Ht. destruct (String.eqb_spec t (ctype c)) as [->|Hne].
    + exists ct'. split; [exact Ect|]. intros n Hn. rewrite Ef. destruct (dget (cslots c) n) as [x|] eqn:E; [apply (dget_Some_key _ _ E)|].
      exfalso. destruct (smem n (map fst (wpairs (MkWG " " "" ps)))) eqn:Em; cbn [wpairs] in Em.
      * destruct (smem n (type_slots ps)) eqn:Et.
        -- assert (Hns : ~ slot_said ps n) by (intros [_ H']; apply H'; apply smem_In; exact Et).
           pose proof (said_others _ _ _ _ _ Hs n Hns) as Ho. rewrite E, Ht in Ho. apply smem_In in Hn. rewrite Hn in Ho. discriminate.
        -- assert (Hns : slot_said ps n) by (split; [apply smem_In; exact Em|intros H'; apply smem_In in H'; congruence]).
           destruct (said_slots _ _ _ _ _ Hs n Hns) as (w & Ew & _). congruence.
      * assert (Hns : ~ slot_said ps n) by (intros [H' _]; unfold named in H'; apply smem_In in H'; congruence).
        pose proof (said_others _ _ _ _ _ Hs n Hns) as Ho. rewrite E, Ht in Ho. apply smem_In in Hn. rewrite Hn in Ho. discriminate.
    + exists ct. rewrite (Hr t Hne). auto.
Qed.

(** ** Queries *)

Lemma part_text_of v : part_text (part_of v) = written_text v.
Proof. destruct v; reflexivity. Qed.

Lemma query_dict_snoc l p : query_dict (app l [p]) = dset (query_dict l) (fst p) (part_text (snd p)).
Proof. unfold query_dict. rewrite fold_left_app. reflexivity. Qed.

Lemma query_dict_said ps : query_said ps (query_dict (parts_of ps)).
Proof.
  induction ps as [|[m v] ps IH] using rev_ind.
  - split; [intros n; reflexivity|]. intros pre n v post H. destruct pre; discriminate.
  - rewrite parts_of_app. change (parts_of [(m, v)]) with [(m, part_of v)]. rewrite query_dict_snoc. cbn [fst snd]. rewrite part_text_of.
    destruct IH as [IH1 IH2]. split.
    + intros n. rewrite named_snoc, dkeys_dset. unfold dmem. destruct (dget (query_dict (parts_of ps)) m) eqn:E.
      * rewrite IH1. split; [auto|]. intros [H|<-]; [exact H|]. apply IH1. apply (dget_Some_key _ _ E).
      * rewrite in_app_iff, IH1. cbn [In]. intuition auto.
    + intros pre n w post H Hp. rewrite dget_dset. destruct (post) as [|q post'] using rev_ind.
      * apply app_inj_tail in H. destruct H as [_ H]. injection H as <- <-. rewrite String.eqb_refl. reflexivity.
      * clear IHpost'. rewrite app_comm_cons, app_assoc in H. apply app_inj_tail in H. destruct H as [-> <-].
        assert (m <> n) by (intros ->; apply Hp; apply named_snoc; auto).
        apply String.eqb_neq in H. rewrite H. apply (IH2 pre n w post' eq_refl). intros H'. apply Hp. apply named_snoc. auto.
Qed.

(** ** Sides *)

Definition groups_written (gs : list wgroup) : Prop := forall g, In g gs -> all_written (wpairs g).

Lemma side_written signs gs s r : side_text signs gs s r -> groups_written gs.
Proof.
  induction 1 as [rest|c b ps gs g1 g2 g3 s s' rest H1 Hc H2 Hb H3 Hl Hg IH]; intros g Hin; [destruct Hin|].
  destruct Hin as [<-|Hin]; [exact (listing_written ps s s' Hl)|apply IH; exact Hin].
Qed.
Lemma side_signs signs gs s r : side_text signs gs s r -> forall g, In g gs -> one_of_chars signs (wsign g).
Proof.
  induction 1 as [rest|c b ps gs g1 g2 g3 s s' rest H1 Hc H2 Hb H3 Hl Hg IH]; intros g Hin; [destruct Hin|].
  destruct Hin as [<-|Hin]; [exact Hc|apply IH; exact Hin].
Qed.

Definition side_said (st : names_state) (gs : list wgroup) (acc out : dict content) : Prop :=
  (forall k, (forall g, In g gs -> group_key g <> k) -> dget out k = dget acc k) /\
  (forall pre g post, gs = (pre ++ g :: post)%list -> (forall g', In g' post -> group_key g' <> group_key g) ->
     exists st1 x, later st st1 /\ dget out (group_key g) = Some x /\
       content_said (nsreg st1) (nsnames st1) (fresh_type st1) g x).

Lemma side_said_cons st st1 g gs acc out x :
  later st st1 -> content_said (nsreg st) (nsnames st) (fresh_type st) g x ->
  side_said st1 gs (dset acc (group_key g) x) out -> side_said st (g :: gs) acc out.
Proof.
  intros Hl Hx [A B]. split.
  - intros k Hk. rewrite A by (intros g' Hg; apply Hk; right; exact Hg). apply dget_dset_neq. apply Hk. left. reflexivity.
  - intros pre g' post E Hp. destruct pre as [|y pre]; cbn [app] in E.
    + injection E as <- <-. exists st, x. split; [apply later_refl|]. split; [|exact Hx]. rewrite (A _ Hp). apply dget_dset_eq.
    + injection E as <- ->. destruct (B pre g' post eq_refl Hp) as (st2 & z & H1 & H2 & H3). exists st2, z.
      split; [exact (later_trans _ _ _ Hl H1)|auto].
Qed.

Lemma key_of g : gsign (group_of g) ++ gbuf (group_of g) = group_key g.
Proof. reflexivity. Qed.

Lemma sign_eqb g c : String.eqb (gsign (group_of g)) (String c "") = Ascii.eqb (wsign g) c.
Proof. unfold group_of. cbn [gsign String.eqb]. destruct (Ascii.eqb (wsign g) c); reflexivity. Qed.

Lemma lhs_side_said gs : forall st acc st' out,
  groups_written gs -> (forall g, In g gs -> one_of_chars lhs_chars (wsign g)) ->
  lhs_side st acc (map group_of gs) = Ok (st', out) -> later st st' /\ side_said st gs acc out.
Proof.
  induction gs as [|g gs IH]; intros st acc st' out Hw Hs H; cbn [map lhs_side] in H.
  - injection H as <- <-. split; [apply later_refl|]. split; [auto|]. intros pre g post E. destruct pre; discriminate.
  - rewrite key_of, sign_eqb in H.
    assert (Hw' : groups_written gs) by (intros g' Hg; apply Hw; right; exact Hg).
    assert (Hs' : forall g', In g' gs -> one_of_chars lhs_chars (wsign g')) by (intros g' Hg; apply Hs; right; exact Hg).
    destruct (Ascii.eqb_spec (wsign g) "?") as [E|E].
    + destruct (IH _ _ _ _ Hw' Hs' H) as [Hl Hsd]. split; [exact Hl|].
      apply (side_said_cons st st g gs acc out (CDict (query_dict (gpairs (group_of g))))); [apply later_refl| |exact Hsd].
      apply content_query; [exact E|]. apply query_dict_said.
    + change (gpairs (group_of g)) with (parts_of (wpairs g)) in H.
      destruct (chunk_of_pairs st "" (parts_of (wpairs g))) as [[st1 c]|] eqn:Ec; cbn [rbind] in H; [|discriminate].
      assert (Hg : all_written (wpairs g)) by (apply Hw; left; reflexivity).
      pose proof (chunk_of_pairs_later st (wpairs g) st1 c Hg Ec) as Hl1.
      destruct (IH _ _ _ _ Hw' Hs' H) as [Hl Hsd]. split; [exact (later_trans _ _ _ Hl1 Hl)|].
      apply (side_said_cons st st1 g gs acc out (CChunk c)); [exact Hl1| |exact Hsd].
      destruct (chunk_of_pairs_sound st "" (wpairs g) st1 c Hg Ec) as (Hn & Hcs & _).
      apply content_chunk; [|exact Hn|exact Hcs].
      assert (Hsg : one_of_chars lhs_chars (wsign g)) by (apply Hs; left; reflexivity).
      unfold one_of_chars in Hsg. cbn [lhs_chars list_ascii_of_string In] in Hsg.
      destruct Hsg as [Eg|[Eg|[]]]; [|congruence]. rewrite <- Eg. cbn [In]. intuition discriminate.
Qed.

Lemma rhs_side_said gs : forall st acc st' out,
  groups_written gs -> rhs_side st acc (map group_of gs) = Ok (st', out) -> later st st' /\ side_said st gs acc out.
Proof.
  induction gs as [|g gs IH]; intros st acc st' out Hw H; cbn [map rhs_side] in H.
  - injection H as <- <-. split; [apply later_refl|]. split; [auto|]. intros pre g post E. destruct pre; discriminate.
  - rewrite key_of, !sign_eqb in H.
    assert (Hw' : groups_written gs) by (intros g' Hg; apply Hw; right; exact Hg).
    destruct (Ascii.eqb_spec (wsign g) "?") as [E|E].
    { destruct (IH _ _ _ _ Hw' H) as [Hl Hsd]. split; [exact Hl|].
      apply (side_said_cons st st g gs acc out (CDict (query_dict (gpairs (group_of g))))); [apply later_refl| |exact Hsd].
      apply content_query; [exact E|]. apply query_dict_said. }
    destruct (Ascii.eqb_spec (wsign g) "~") as [E1|E1].
    { destruct (IH _ _ _ _ Hw' H) as [Hl Hsd]. split; [exact Hl|].
      apply (side_said_cons st st g gs acc out CNone); [apply later_refl| |exact Hsd]. apply content_clear. exact E1. }
    destruct (Ascii.eqb_spec (wsign g) "!") as [E2|E2].
    { destruct (IH _ _ _ _ Hw' H) as [Hl Hsd]. split; [exact Hl|].
      eapply (side_said_cons st st g gs acc out); [apply later_refl| |exact Hsd].
      change (gpairs (group_of g)) with (parts_of (wpairs g)). unfold parts_of. rewrite map_map. cbn [fst snd].
      replace (map (fun x => (fst x, part_text (part_of (snd x)))) (wpairs g))
        with (map (fun p => (fst p, written_text (snd p))) (wpairs g)); [apply content_commands; exact E2|].
      apply map_ext. intros [n v]. cbn [fst snd]. rewrite part_text_of. reflexivity. }
    change (gpairs (group_of g)) with (parts_of (wpairs g)) in H.
    destruct (chunk_of_pairs st "" (parts_of (wpairs g))) as [[st1 c]|] eqn:Ec; cbn [rbind] in H; [|discriminate].
    assert (Hg : all_written (wpairs g)) by (apply Hw; left; reflexivity).
    pose proof (chunk_of_pairs_later st (wpairs g) st1 c Hg Ec) as Hl1.
    destruct (IH _ _ _ _ Hw' H) as [Hl Hsd]. split; [exact (later_trans _ _ _ Hl1 Hl)|].
    apply (side_said_cons st st1 g gs acc out (CChunk c)); [exact Hl1| |exact Hsd].
    destruct (chunk_of_pairs_sound st "" (wpairs g) st1 c Hg Ec) as (Hn & Hcs & _).
    apply content_chunk; [|exact Hn|exact Hcs]. cbn [In]. intuition congruence.
Qed.

Theorem rule_sides_said st ls rs s st' l r :
  rule_text ls rs s -> rule_sides st (map group_of ls, map group_of rs) = Ok (st', (l, r)) ->
  later st st' /\ side_said st ls [] l /\ exists st1, later st st1 /\ side_said st1 rs [] r.
Proof.
  intros (g & x & y & _ & _ & _ & Hl & Hr & _) H. unfold rule_sides in H. cbn [fst snd] in H.
  destruct (lhs_side st [] (map group_of ls)) as [[st1 l1]|] eqn:E1; cbn [rbind] in H; [|discriminate].
  destruct (rhs_side st1 [] (map group_of rs)) as [[st2 r1]|] eqn:E2; cbn [rbind] in H; [|discriminate]. injection H as <- <- <-.
  destruct (lhs_side_said ls st [] st1 l1 (side_written _ _ _ _ Hl) (side_signs _ _ _ _ Hl) E1) as [L1 S1].
  destruct (rhs_side_said rs st1 [] st2 r1 (side_written _ _ _ _ Hr) E2) as [L2 S2].
  split; [exact (later_trans _ _ _ L1 L2)|]. split; [exact S1|]. exists st1. auto.
Qed.
