(** Proofs about visual search (C41, C42, C69, C70). *)
From Coq Require Import DecimalString DecimalPos DecimalZ Qround Qabs Lqa.
From Verif Require Import BaseFacts Chunks ChunkFacts ChunkMatch ChunkGround TypeFacts SplitFacts ResolveFacts ModifyFacts Buffers Vision VisionSpec.
From Verif Require Import ChunkSpec.
Local Open Scope string_scope.
Arguments hval_eqb : simpl never.
Arguments hash_value : simpl nomatch.
Arguments val_eqb : simpl nomatch.

(** ** Numbers and text *)

Lemma to_int_nonnil z : Z.to_int z <> Decimal.Pos Decimal.Nil /\ Z.to_int z <> Decimal.Neg Decimal.Nil.
Proof.
  destruct z as [|p|p]; simpl; split; try discriminate; intros H; injection H as H; exact (Unsigned.to_uint_nonnil p H).
Qed.

Inductive digits : string -> Prop :=
| dig_nil : digits ""
| dig_cons c s : (exists d, c = Ascii.ascii_of_nat (48 + d) /\ (d < 10)%nat) -> digits s -> digits (String c s).
Lemma digits_uint d : digits (NilEmpty.string_of_uint d).
Proof.
  induction d; simpl; constructor; try assumption;
    [exists 0%nat|exists 1%nat|exists 2%nat|exists 3%nat|exists 4%nat|exists 5%nat|exists 6%nat|exists 7%nat|exists 8%nat|exists 9%nat];
    (split; [reflexivity|lia]).
Qed.
Lemma digits_zero d : digits (NilZero.string_of_uint d).
Proof. destruct d; try apply (digits_uint (_ _)). simpl. constructor; [exists 0%nat; split; [reflexivity|lia]|constructor]. Qed.
Lemma digit_char c : (exists d, c = Ascii.ascii_of_nat (48 + d) /\ (d < 10)%nat) ->
  c <> "~"%char /\ c <> "!"%char /\ c <> "="%char /\ c <> "<"%char /\ c <> ">"%char /\ c <> "+"%char.
Proof.
  intros (d & -> & H). do 10 (destruct d as [|d]; [repeat split; discriminate|]). lia.
Qed.

(** A numeral is a sign and digits. *)
Lemma numeral_cases z : digits (numeral z) \/ exists s, numeral z = String "-" s /\ digits s.
Proof.
  unfold numeral. destruct (Z.to_int z) as [d|d]; [left|right]; simpl; [apply digits_zero|].
  exists (NilZero.string_of_uint d). split; [reflexivity|apply digits_zero].
Qed.
Lemma digits_plain s : digits s -> plain_text s.
Proof. induction 1 as [|c s H _ IH]; simpl; [exact I|]. destruct (digit_char c H) as (A & B & C & _). auto. Qed.
Lemma numeral_plain z : plain_text (numeral z).
Proof.
  destruct (numeral_cases z) as [H|(s & -> & H)]; [apply digits_plain; exact H|].
  simpl. repeat split; try discriminate. apply digits_plain. exact H.
Qed.
Lemma numeral_parse z : NilZero.int_of_string (numeral z) = Some (Z.to_int z).
Proof. apply NilZero.isi; apply to_int_nonnil. Qed.
Lemma numeral_nonempty z : numeral z <> "".
Proof. intros H. pose proof (numeral_parse z) as P. rewrite H in P. discriminate. Qed.
Lemma numeral_head z c s : numeral z = String c s -> c <> "<"%char /\ c <> ">"%char /\ c <> "+"%char.
Proof.
  intros E. destruct (numeral_cases z) as [H|(s' & E' & H)].
  - rewrite E in H. inversion H as [|c' s' Hc _]. subst. apply digit_char in Hc. tauto.
  - rewrite E in E'. injection E' as -> _. repeat split; discriminate.
Qed.
Lemma numeral_not_none z : numeral z <> "None".
Proof.
  intros E. destruct (numeral_cases z) as [H|(s' & E' & H)]; rewrite E in *; [|discriminate].
  inversion H as [|c' s' Hc _]. subst. destruct Hc as (d & Ed & Hd).
  do 10 (destruct d as [|d]; [discriminate|]). lia.
Qed.
Lemma int_text_numeral z : int_text (numeral z) = Some z.
Proof.
  unfold int_text. pose proof (numeral_parse z) as P. pose proof (of_to z) as Z.
  destruct (numeral z) as [|c s] eqn:E; [discriminate|].
  destruct (numeral_head z c s E) as (_ & _ & Hc).
  assert (X : match NilZero.int_of_string (String c s) with Some i => Some (Z.of_int i) | None => None end = Some z) by (rewrite P, Z; reflexivity).
  destruct c as [[] [] [] [] [] [] [] []]; try exact X. exfalso. apply Hc. reflexivity.
Qed.
Lemma numeral_inj a b : numeral a = numeral b -> a = b.
Proof. intros H. pose proof (int_text_numeral a) as A. rewrite H, int_text_numeral in A. injection A as ->. reflexivity. Qed.

Lemma trunc_pixel q : trunc q = pixel q.
Proof.
  unfold trunc, pixel. destruct q as [n d]. simpl Qnum. simpl Qden.
  destruct (Qle_bool 0 (n # d)) eqn:E.
  - apply Qle_bool_iff in E. unfold Qle in E. simpl in E. rewrite Z.mul_1_r in E. simpl Qfloor.
    apply Z.quot_div_nonneg; lia.
  - assert (n < 0)%Z.
    { destruct (Z.lt_ge_cases n 0) as [H|H]; [exact H|exfalso]. assert (X : Qle_bool 0 (n # d) = true); [|congruence].
      apply Qle_bool_iff. unfold Qle. simpl. lia. }
    unfold Qceiling. simpl. rewrite <- (Z.opp_involutive n) at 1. rewrite Z.quot_opp_l by lia. f_equal.
    apply Z.quot_div_nonneg; lia.
Qed.
Lemma position_spot st : position st = spot st.
Proof. unfold position, spot. rewrite !trunc_pixel. reflexivity. Qed.

(** ** Locations of objects *)

Lemma args_get st pos n :
  proper_stim st -> (pos = false \/ (n <> "screen_x" /\ n <> "screen_y")) ->
  dget (location_args st pos) n = match dget (location_args st false) n with Some x => Some x | None => None end.
Proof.
  intros _ H. unfold location_args. destruct pos; [|destruct (dget _ n); reflexivity].
  destruct H as [H|[H1 H2]]; [discriminate|]. rewrite !dget_dset_neq by congruence.
  match goal with |- dget ?d n = _ => destruct (dget d n); reflexivity end.
Qed.

Lemma feats_spec st n s : proper_stim st ->
  dget (location_args st false) n = Some (RStr s) <-> shows st n s.
Proof.
  intros (Nd & Nt & _). unfold location_args, shows. cbv zeta. rewrite dget_app.
  set (vis := match stvisible st with Some l => l | None => [] end).
  assert (V : forall n, smem n vis = true <-> exists l, stvisible st = Some l /\ In n l).
  { intros m. unfold vis. rewrite smem_In. destruct (stvisible st) as [l|]; simpl.
    - split; [intros H; exists l; auto|intros (l' & E & H); injection E as ->; exact H].
    - split; [intros []|intros (l' & E & _); discriminate]. }
  assert (F : forall n s, dget (map (fun p : string * string => (fst p, RStr (snd p))) (filter (fun p => smem (fst p) vis) (stfeats st))) n = Some (RStr s) <->
                      smem n vis = true /\ In (n, s) (stfeats st)).
  { clear n s. intros n s. clear Nt. induction (stfeats st) as [|[k v] l IH]; simpl; [split; [discriminate|intros [_ []]]|].
    inversion Nd as [|? ? N1 N2]. subst. specialize (IH N2). destruct (smem k vis) eqn:Ek; simpl.
    - destruct (String.eqb_spec k n) as [->|Hn].
      + split; [intros E; injection E as ->; auto|]. intros [_ [E|E]]; [injection E as ->; reflexivity|].
        exfalso. apply N1. change n with (fst (n, s)). apply in_map. exact E.
      + rewrite IH. split; [intros [A B]; auto|]. intros [A [B|B]]; [injection B as -> _; congruence|auto].
    - rewrite IH. split; [intros [A B]; auto|]. intros [A [B|B]]; [injection B as -> _; congruence|auto]. }
  destruct (String.eqb_spec n "text") as [->|Hn].
  - assert (Nf : ~ In ("text", s) (stfeats st)) by (intros X; apply Nt; change "text" with (fst ("text", s)); apply in_map; exact X).
    destruct (sttext st) as [t|].
    + destruct (smem "text" vis) eqn:Ev; simpl.
      * split.
        -- intros E. injection E as ->. apply V in Ev. destruct Ev as (l & E1 & E2). exists l. auto.
        -- intros (l & _ & _ & [[_ E]|E]); [injection E as ->; reflexivity|contradiction].
      * rewrite F, Ev. split; [intros [X _]; discriminate|]. intros (l & E1 & E2 & _). exfalso.
        assert (X : smem "text" vis = true) by (apply V; eauto). congruence.
    + simpl. rewrite F. split; [intros [_ X]; contradiction|]. intros (l & _ & _ & [[_ E]|E]); [discriminate|contradiction].
  - assert (E0 : dget (match sttext st with Some t => if smem "text" vis then [("text", RStr t)] else [] | None => [] end) n = None).
    { destruct (sttext st); [|reflexivity]. destruct (smem "text" vis); [|reflexivity].
      change (dget [("text", RStr s0)] n) with (if String.eqb "text" n then Some (RStr s0) else None).
      destruct (String.eqb_spec "text" n); [congruence|reflexivity]. }
    match goal with |- match ?x with _ => _ end = _ <-> _ => replace x with (@None rawval) by (symmetry; exact E0) end. rewrite F, V. split.
    + intros [(l & A & B) C]. exists l. auto.
    + intros (l & A & B & [[C _]|C]); [congruence|]. split; [eauto|exact C].
Qed.

Lemma args_strings st pos n x : In (n, x) (location_args st pos) -> exists s, x = RStr s.
Proof.
  assert (D : forall (d : dict rawval) k v, (forall n x, In (n, x) d -> exists s, x = RStr s) -> forall n x, In (n, x) (dset d k (RStr v)) -> exists s, x = RStr s).
  { intros d k v H m y Hin. change (dset d k (RStr v)) with (dupdate d [(k, RStr v)]) in Hin. apply dupdate_In in Hin.
    destruct Hin as [Hin|[E|[]]]; [eauto|]. injection E as <- <-. eauto. }
  assert (B : forall n x, In (n, x) (location_args st false) -> exists s, x = RStr s).
  { intros m y Hin. unfold location_args in Hin. apply in_app_or in Hin. destruct Hin as [Hin|Hin].
    - destruct (sttext st); [|contradiction]. destruct (smem _ _); [|contradiction]. destruct Hin as [E|[]]. injection E as <- <-. eauto.
    - apply in_map_iff in Hin. destruct Hin as (p & E & _). injection E as <- <-. eauto. }
  destruct pos; [|apply B]. unfold location_args. revert n x. apply D. apply D. exact B.
Qed.

Lemma visible_slots r st r' c : proper_stim st -> location_chunk r st false = Ok (r', c) ->
  (forall n w, dget (cslots c) n = Some (Some w) <-> exists s, w = MkVV (VStr s) None [] [] /\ shows st n s).
Proof.
  intros P H n w. apply mk_chunk_spec in H. destruct H as (_ & H1 & H2 & _). split.
  - intros E. destruct (dget (location_args st false) n) as [x|] eqn:Ex.
    + destruct (args_strings st false n x (dget_In _ _ Ex)) as (s & ->). destruct (H1 _ _ Ex) as (w' & C & E').
      rewrite E in E'. injection E' as ->. apply feats_spec in Ex; [|exact P]. exists s. split; [|exact Ex].
      destruct P as (_ & _ & P). destruct (P _ _ Ex) as (Pt & _). cbn in C. rewrite (split_plain _ Pt) in C. injection C as <-. reflexivity.
    + rewrite (H2 _ Ex) in E; [discriminate|]. apply dget_Some_key in E. exact E.
  - intros (s & -> & Hs). pose proof Hs as Hs'. apply feats_spec in Hs; [|exact P]. destruct (H1 _ _ Hs) as (w' & C & E').
    destruct P as (_ & _ & P). destruct (P _ _ Hs') as (Pt & _). cbn in C. rewrite (split_plain _ Pt) in C. injection C as <-. exact E'.
Qed.

Lemma location_locates r st r' c : proper_stim st -> location_chunk r st true = Ok (r', c) -> locates c st.
Proof.
  intros P H. apply mk_chunk_spec in H. destruct H as (_ & H1 & H2 & _).
  assert (L : forall n z, dget (location_args st true) n = Some (RStr (numeral z)) -> holds c n (VStr (numeral z))).
  { intros n z E. destruct (H1 _ _ E) as (w & C & D). cbn in C. rewrite (split_plain _ (numeral_plain z)) in C. injection C as <-.
    exists (MkVV (VStr (numeral z)) None [] []). split; [exact D|]. split; [reflexivity|]. intros X. inversion X. apply (numeral_not_none z). auto. }
  assert (X : dget (location_args st true) "screen_x" = Some (RStr (numeral (fst (spot st))))).
  { unfold location_args. rewrite dget_dset_neq by discriminate. rewrite dget_dset_eq, position_spot. reflexivity. }
  assert (Y : dget (location_args st true) "screen_y" = Some (RStr (numeral (snd (spot st))))).
  { unfold location_args. rewrite dget_dset_eq, position_spot. reflexivity. }
  split; [apply L; exact X|]. split; [apply L; exact Y|]. split.
  - intros n s Hs N1 N2. pose proof Hs as Hs'. apply feats_spec in Hs; [|exact P].
    assert (E : dget (location_args st true) n = Some (RStr s)) by (rewrite args_get, Hs by auto; reflexivity).
    destruct (H1 _ _ E) as (w & C & D). destruct P as (_ & _ & P). destruct (P _ _ Hs') as (Pt & _ & Pn).
    cbn in C. rewrite (split_plain _ Pt) in C. injection C as <-. eexists. split; [exact D|]. split; [reflexivity|].
    intros Z. inversion Z. congruence.
  - intros n v (w & D & E & _). destruct (String.eqb_spec n "screen_x") as [->|N1]; [auto|].
    destruct (String.eqb_spec n "screen_y") as [->|N2]; [auto|]. right. right.
    destruct (dget (location_args st true) n) as [x|] eqn:Ex.
    + destruct (args_strings st true n x (dget_In _ _ Ex)) as (s & ->).
      destruct (H1 _ _ Ex) as (w' & C & D'). rewrite D in D'. injection D' as <-.
      rewrite args_get in Ex by auto. destruct (dget (location_args st false) n) eqn:Ey; [|discriminate]. injection Ex as ->.
      apply feats_spec in Ey; [|exact P]. exists s. split; [|exact Ey]. destruct P as (_ & _ & P). destruct (P _ _ Ey) as (Pt & _).
      cbn in C. rewrite (split_plain _ Pt) in C. injection C as <-. symmetry. exact E.
    + rewrite (H2 _ Ex) in D; [discriminate|]. apply dget_Some_key in D. exact D.
Qed.

(** ** The chunk that is searched for *)

Definition text_slot (s : string) : vv := MkVV (VStr s) None [] [].

Lemma positive_fun b w u v : NoDup (dkeys (bpos b)) -> ResolveFacts.positive b w u -> ResolveFacts.positive b w v -> u = v.
Proof.
  intros Nd Hu Hv. destruct Hu as [x u A B C|A B|A B]; inversion Hv as [x' v' A' B' C'|A' B'|A' B']; subst;
    repeat match goal with H : _ \/ _ |- _ => destruct H end; try congruence; try contradiction.
  rewrite A in A'. injection A' as <-. apply dget_NoDup in C; [|exact Nd]. apply dget_NoDup in C'; [|exact Nd]. congruence.
Qed.

Lemma search_slots o bs args r r1 search : texts_only o bs -> registry_ok r ->
  resolve_slots bs false (removeunused o) = Ok args -> mk_chunk r "_visuallocation" args = Ok (r1, search) ->
  registry_ok r1 /\ wf_chunk search /\ fact search /\
  forall n w, dget (cslots search) n = Some (Some w) <-> exists s, w = text_slot s /\ wants o bs n (Some s).
Proof.
  intros (No & Nd & Nm & W) Ro Rs M.
  destruct (resolve_get bs false o args No Nd Nm Rs) as (R1 & R2 & Na).
  assert (A : forall n x, dget args n = Some x <-> exists s, x = RVV (text_slot s) /\ wants o bs n (Some s)).
  { intros n x. split.
    - intros E. destruct (W n) as ([s|] & Hw).
      + exists s. split; [|exact Hw]. inversion Hw as [|w s' Mw Pw V1 V2]. subst. destruct (R1 n w Mw) as (q & Eq & (Pq & Vq & Nq & Fq & _) & _).
        rewrite E in Eq. injection Eq as ->. assert (vnegvals q = []) by (destruct (vnegvals q) as [|u l]; [reflexivity|]; exfalso;
          destruct (Fq u (or_introl eq_refl)) as [X|(x & X & _)]; rewrite ?V1, ?V2 in X; contradiction).
        unfold text_slot. rewrite (positive_fun bs w _ _ Nd Pw Pq). destruct q; simpl in *. congruence.
      + inversion Hw as [U|]. subst. rewrite (R2 n U) in E. discriminate.
    - intros (s & -> & Hw). inversion Hw as [|w s' Mw Pw V1 V2]. subst. destruct (R1 n w Mw) as (q & Eq & (Pq & Vq & Nq & Fq & _) & _).
      rewrite Eq. assert (vnegvals q = []) by (destruct (vnegvals q) as [|u l]; [reflexivity|]; exfalso;
          destruct (Fq u (or_introl eq_refl)) as [X|(x & X & _)]; rewrite ?V1, ?V2 in X; contradiction).
      unfold text_slot. rewrite (positive_fun bs w _ _ Nd Pw Pq). destruct q; simpl in *. congruence. }
  assert (Wr : forall n x, In (n, x) args -> wf_raw x).
  { intros n x Hin. apply dget_NoDup in Hin; [|exact Na]. apply A in Hin. destruct Hin as (s & -> & _). simpl. split; [constructor|intros v []]. }
  destruct (mk_chunk_wf _ _ _ _ _ Ro Wr M) as (Wf & Ro1). split; [exact Ro1|]. split; [exact Wf|].
  apply mk_chunk_spec in M. destruct M as (_ & M1 & M2 & _).
  assert (S : forall n w, dget (cslots search) n = Some (Some w) <-> exists s, w = text_slot s /\ wants o bs n (Some s)).
  { intros n w. split.
    - intros E. destruct (dget args n) as [x|] eqn:Ex.
      + destruct (M1 _ _ Ex) as (w' & C & D). apply A in Ex. destruct Ex as (s & -> & Hw). cbn in C. injection C as <-.
        rewrite E in D. injection D as ->. eauto.
      + rewrite (M2 _ Ex) in E; [discriminate|]. apply dget_Some_key in E. exact E.
    - intros (s & -> & Hw). assert (Ex : dget args n = Some (RVV (text_slot s))) by (apply A; eauto).
      destruct (M1 _ _ Ex) as (w' & C & D). cbn in C. injection C as <-. exact D. }
  split; [|exact S]. constructor. intros n w Hin. apply dget_NoDup in Hin; [|apply wf_NoDup; exact Wf].
  apply S in Hin. destruct Hin as (s & -> & _). simpl. repeat split; constructor.
Qed.

Lemma fits_spec o bs search r st r' visible : wf_chunk search -> fact search ->
  (forall n w, dget (cslots search) n = Some (Some w) <-> exists s, w = text_slot s /\ wants o bs n (Some s)) ->
  registry_ok r -> proper_stim st -> location_chunk r st false = Ok (r', visible) ->
  registry_ok r' /\
  (snd (chunk_le nobind visible search) = true <-> forall n s, shows st n s -> wants o bs n (Some s)).
Proof.
  intros Ws Fs Ss Ro P L. pose proof (visible_slots _ _ _ _ P L) as V.
  assert (Wf : wf_chunk visible /\ registry_ok r').
  { eapply mk_chunk_wf; [exact Ro| |exact L]. intros n x Hin. apply args_strings in Hin. destruct Hin as (s & ->). exact I. }
  destruct Wf as (Wf & Ro'). split; [exact Ro'|].
  assert (Pf : proper_fact visible).
  { assert (X : forall n w, In (n, Some w) (cslots visible) -> exists s, w = text_slot s /\ shows st n s).
    { intros n w Hin. apply dget_NoDup in Hin; [|apply wf_NoDup; exact Wf]. apply V in Hin. exact Hin. }
    split.
    - constructor. intros n w Hin. destruct (X n w Hin) as (s & -> & _). simpl. repeat split; constructor.
    - intros n w Hin. destruct (X n w Hin) as (s & -> & Hs). destruct P as (_ & _ & P). destruct (P _ _ Hs) as (_ & P1 & P2).
      simpl. split; intros Z; inversion Z; congruence. }
  rewrite (fact_le_subsumes nobind visible search Wf Pf Ws Fs). unfold subsumes. split.
  - intros H n s Hs. pose proof P as (_ & _ & P'). destruct (P' _ _ Hs) as (_ & P1 & P2).
    destruct (H n (VStr s)) as (u & (w & Ew & Eu & _) & Su).
    { exists (text_slot s). split; [apply V; exists s; auto|]. split; [reflexivity|]. intros Z. inversion Z. congruence. }
    apply Ss in Ew. destruct Ew as (s' & -> & Hw). simpl in Eu. subst u. inversion Su. subst. exact Hw.
  - intros H n v (w & Ew & Ev & Ne). apply V in Ew. destruct Ew as (s & -> & Hs). simpl in Ev. subst v.
    exists (VStr s). split; [|constructor]. exists (text_slot s). split; [apply Ss; exists s; auto|]. split; [reflexivity|exact Ne].
Qed.

(** ** The tests of one round *)

Lemma attention_spec extra finst recent st : test_skips extra finst recent st = false <-> attention_ok extra finst recent st.
Proof.
  unfold test_skips, attention_ok. destruct (dget extra "attended") as [a|]; [|split; auto].
  assert (A : stim_in st recent = true <-> attended recent st).
  { unfold stim_in, attended. rewrite existsb_exists. reflexivity. }
  destruct (Nat.eqb_spec finst 0) as [->|Hf]; simpl; [split; auto|].
  destruct (String.eqb a "False"); destruct (stim_in st recent); simpl; split; intros H; try reflexivity; try discriminate.
  - destruct H as [H|H]; [contradiction|]. exfalso. apply H, A. reflexivity.
  - right. intros X. apply A in X. discriminate.
  - right. apply A. reflexivity.
  - destruct H as [H|H]; [contradiction|]. apply A in H. discriminate.
Qed.

Lemma uint_bad c s : (forall d, NilEmpty.uint_of_string (String c s) <> Some d) -> NilZero.int_of_string (String c s) = None \/ c = "-"%char.
Proof.
  intros H. simpl. destruct (Ascii.eqb_spec c "-") as [->|Hc]; [auto|]. left.
  unfold NilZero.uint_of_string. destruct (NilEmpty.uint_of_string (String c s)) as [d|] eqn:E; [exfalso; exact (H d eq_refl)|]. simpl in E. rewrite E. reflexivity.
Qed.
Lemma int_text_mark c s : c = "<"%char \/ c = ">"%char -> int_text (String c s) = None.
Proof.
  intros H. assert (X : NilZero.int_of_string (String c s) = None).
  { destruct (uint_bad c s) as [E|E]; [|exact E|subst; destruct H; discriminate].
    intros d. simpl. unfold uint_of_char. destruct (NilEmpty.uint_of_string s); destruct H; subst; discriminate. }
  unfold int_text. destruct H; subst; rewrite X; reflexivity.
Qed.

Arguments int_text : simpl never.
Lemma abs_spec p z : abs_skips (place_text p) z = false <-> (forall n, p = At n -> z = n).
Proof.
  destruct p; simpl; try (split; [intros _ m H; discriminate|reflexivity]).
  - rewrite int_text_numeral. destruct (Z.eqb_spec n z) as [->|H]; simpl; split; intros X; try discriminate; try reflexivity.
    + intros m E. injection E as ->. reflexivity.
    + exfalso. apply H. symmetry. apply X. reflexivity.
  - rewrite int_text_mark by auto. split; [intros _ m H; discriminate|reflexivity].
  - rewrite int_text_mark by auto. split; [intros _ m H; discriminate|reflexivity].
Qed.
Lemma rel_spec p z : exists b, rel_skips (place_text p) z = Ok b /\
  (b = false <-> (forall n, p = Below n -> (z < n)%Z) /\ (forall n, p = Above n -> (n < z)%Z)).
Proof.
  destruct p; simpl place_text; try (exists false; split; [reflexivity|split; [intros _; split; intros m H; discriminate|reflexivity]]).
  - exists false. split; [|split; [intros _; split; intros m H; discriminate|reflexivity]].
    unfold rel_skips. destruct (numeral n) as [|c s] eqn:E; [reflexivity|]. destruct (numeral_head n c s E) as (A & B & _).
    destruct c as [[] [] [] [] [] [] [] []]; try reflexivity; exfalso; first [apply A; reflexivity|apply B; reflexivity].
  - exists (Z.leb n z). simpl append. unfold rel_skips. rewrite int_text_numeral. split; [reflexivity|]. rewrite Z.leb_gt. split.
    + intros H. split; intros m E; [injection E as <-; exact H|discriminate].
    + intros [H _]. apply H. reflexivity.
  - exists (Z.geb n z). simpl append. unfold rel_skips. rewrite int_text_numeral. split; [reflexivity|]. rewrite Z.geb_leb, Z.leb_gt. split.
    + intros H. split; intros m E; [discriminate|injection E as <-; exact H].
    + intros [_ H]. apply H. reflexivity.
Qed.
Lemma lies_spec p z : lies p z <-> (forall n, p = At n -> z = n) /\ (forall n, p = Below n -> (z < n)%Z) /\ (forall n, p = Above n -> (n < z)%Z).
Proof.
  destruct p; simpl; (split; [intros H; repeat split; intros m E; try discriminate; injection E as <-; exact H|]);
    try (intros _; exact I); intros (A & B & C); auto.
Qed.

Lemma gtQ_spec a b : gtQ a b = true <-> b < a.
Proof.
  unfold gtQ. rewrite negb_true_iff. split; intros H.
  - apply Qnot_le_lt. intros X. apply Qle_bool_iff in X. congruence.
  - destruct (Qle_bool a b) eqn:E; [|reflexivity]. apply Qle_bool_iff in E. lra.
Qed.
Lemma numeral_digit_head z c s : numeral z = String c s -> c = "-"%char \/ exists d, c = Ascii.ascii_of_nat (48 + d) /\ (d < 10)%nat.
Proof.
  intros E. destruct (numeral_cases z) as [H|(s' & E' & _)]; [|rewrite E in E'; injection E' as -> _; auto].
  rewrite E in H. inversion H. subst. auto.
Qed.
Lemma numeral_word z c s : numeral z = String c s -> c <> "l"%char /\ c <> "h"%char /\ c <> "c"%char /\ c <> "o"%char.
Proof.
  intros E. destruct (numeral_digit_head _ _ _ E) as [->|(d & -> & H)]; [repeat split; discriminate|].
  do 10 (destruct d as [|d]; [repeat split; discriminate|]). lia.
Qed.
Lemma not_word z w : In w ["lowest"; "highest"; "closest"; "onewayclosest"] -> numeral z <> w.
Proof.
  intros H E. destruct (numeral z) as [|c s] eqn:En; [simpl in H; intuition (subst; discriminate)|].
  destruct (numeral_word _ _ _ En) as (A & B & C & D). simpl in H.
  destruct H as [<-|[<-|[<-|[<-|[]]]]]; injection E as E _; congruence.
Qed.
Lemma text_is p w : is_text (place_text p) w = true <-> place_text p = Some w.
Proof.
  unfold is_text. destruct (place_text p) as [x|]; [|split; discriminate]. rewrite String.eqb_eq. split; [intros ->; reflexivity|intros E; injection E as ->; reflexivity].
Qed.
Lemma nearest_text p : is_text (place_text p) "closest" = match p with Nearest => true | _ => false end.
Proof.
  destruct p; try reflexivity. simpl. apply String.eqb_neq. apply not_word. simpl. auto.
Qed.
Lemma here_text p : is_text (place_text p) "onewayclosest" = match p with NearestHere => true | _ => false end.
Proof.
  destruct p; try reflexivity. simpl. apply String.eqb_neq. apply not_word. simpl. auto.
Qed.
Lemma sup_eqb x cur z : sup_skips x cur z =
  match cur with
  | Some c => if is_text x "lowest" then Z.gtb z c else if is_text x "highest" then Z.ltb z c else false
  | None => false
  end.
Proof.
  unfold sup_skips, is_text. destruct x as [x|]; [|destruct cur; reflexivity].
  destruct (String.eqb_spec x "lowest") as [->|N1]; [destruct cur; reflexivity|].
  destruct (String.eqb_spec x "highest") as [->|N2]; [destruct cur; reflexivity|].
  destruct cur as [c|]; repeat match goal with |- match ?y with _ => _ end = _ => is_var y; destruct y; try reflexivity end; exfalso; first [apply N1; reflexivity|apply N2; reflexivity].
Qed.
Lemma lowest_text p : is_text (place_text p) "lowest" = match p with Lowest => true | _ => false end.
Proof. destruct p; try reflexivity. simpl. apply String.eqb_neq. apply not_word. simpl. auto. Qed.
Lemma highest_text p : is_text (place_text p) "highest" = match p with Highest => true | _ => false end.
Proof. destruct p; try reflexivity. simpl. apply String.eqb_neq. apply not_word. simpl. auto. Qed.

(** The object is worse than what was found before. *)
Definition worse (px py : place) (f : Q * Q) (z c : Z * Z) : Prop :=
  penalty_x px f c < penalty_x px f z \/ penalty_y py f c < penalty_y py f z.

Lemma worse_spec px py f c z (sx : option slotval) :
  (px <> Anywhere -> exists w, sx = Some (Some w)) -> (py = Nearest -> px <> Anywhere) ->
  (sup_skips (place_text px) (Some (fst c)) (fst z) || sup_skips (place_text py) (Some (snd c)) (snd z) ||
   closest_skips sx (place_text px) (place_text py) f (Some c) z ||
   oneway_skips (place_text px) (fst f) (Some (fst c)) (fst z) || oneway_skips (place_text py) (snd f) (Some (snd c)) (snd z)) = true <->
  worse px py f z c.
Proof.
  intros Hs Hg. unfold closest_skips, oneway_skips. rewrite !sup_eqb, !lowest_text, !highest_text, !nearest_text, !here_text.
  rewrite !orb_true_iff. unfold worse, penalty_x, penalty_y.
  assert (C : (match sx with Some (Some _) => ((match px with Nearest => true | _ => false end) || (match py with Nearest => true | _ => false end)) && gtQ (dist2 f z) (dist2 f c) | _ => false end) = true <->
              (px = Nearest \/ py = Nearest) /\ dist2 f c < dist2 f z).
  { split.
    - destruct sx as [[w|]|]; try discriminate. rewrite andb_true_iff, gtQ_spec, orb_true_iff. intros [H1 H2]. split; [|exact H2].
      destruct H1 as [H1|H1]; [destruct px; try discriminate; auto|destruct py; try discriminate; auto].
    - intros [H1 H2]. assert (N : px <> Anywhere) by (destruct H1 as [->|H1]; [discriminate|auto]).
      destruct (Hs N) as (w & ->). rewrite andb_true_iff, gtQ_spec, orb_true_iff. split; [|exact H2]. destruct H1 as [->| ->]; auto. }
  assert (SX : forall p a b, (if match p with Lowest => true | _ => false end then Z.gtb a b else if match p with Highest => true | _ => false end then Z.ltb a b else false) = true <->
               (p = Lowest /\ (b < a)%Z) \/ (p = Highest /\ (a < b)%Z)).
  { intros p a b. rewrite Z.gtb_ltb. destruct p; try rewrite Z.ltb_lt; split; intros H; try discriminate; auto;
      destruct H as [[E H]|[E H]]; try discriminate; exact H. }
  assert (OX : forall p g a b, (match p with NearestHere => true | _ => false end && gtQ (Qabs (g - inject_Z a)) (Qabs (g - inject_Z b))) = true <->
               p = NearestHere /\ Qabs (g - inject_Z b) < Qabs (g - inject_Z a)).
  { intros p g a b. rewrite andb_true_iff, gtQ_spec. split; intros [H1 H2]; (split; [|exact H2]); [destruct p; try discriminate; reflexivity|subst; reflexivity]. }
  rewrite C, !SX, !OX. clear C SX OX Hs Hg.
  assert (D1 : forall z, penalty Nearest (fst f, fst z) (snd f, snd z) == dist2 f z) by (intros; unfold penalty, dist2, sq; simpl; reflexivity).
  assert (D2 : forall z, penalty Nearest (snd f, snd z) (fst f, fst z) == dist2 f z) by (intros; unfold penalty, dist2, sq; simpl; ring).
  assert (PX : forall p (this other : (Z * Z) -> Q * Z) , (forall z, penalty Nearest (this z) (other z) == dist2 f z) -> fst (this c) = fst (this z) ->
     (penalty p (this c) (other c) < penalty p (this z) (other z) <->
      (p = Lowest /\ (snd (this c) < snd (this z))%Z) \/ (p = Highest /\ (snd (this z) < snd (this c))%Z) \/
      (p = Nearest /\ dist2 f c < dist2 f z) \/
      (p = NearestHere /\ Qabs (fst (this z) - inject_Z (snd (this c))) < Qabs (fst (this z) - inject_Z (snd (this z)))))).
  { intros p this other D E. destruct p; try (rewrite !D); simpl; try (split; [intros H; exfalso; lra|intros H; repeat (destruct H as [H|H]); destruct H; discriminate]).
    - rewrite <- Zlt_Qlt. split; [auto|]. intros H. repeat (destruct H as [H|H]); destruct H as [X H]; try discriminate; exact H.
    - split.
      + intros H. right. left. split; [reflexivity|]. rewrite Zlt_Qlt. lra.
      + intros H. repeat (destruct H as [H|H]); destruct H as [X H]; try discriminate. rewrite Zlt_Qlt in H. lra.
    - split; [auto|]. intros H. repeat (destruct H as [H|H]); destruct H as [X H]; try discriminate; exact H.
    - rewrite E. split; [auto 6|]. intros H. repeat (destruct H as [H|H]); destruct H as [X H]; try discriminate; exact H. }
  rewrite (PX px (fun z => (fst f, fst z)) (fun z => (snd f, snd z))), (PX py (fun z => (snd f, snd z)) (fun z => (fst f, fst z))) by auto.
  simpl. tauto.
Qed.

Lemma no_text p : place_text p = None -> p = Anywhere.
Proof. destruct p; simpl; intros H; try discriminate; reflexivity. Qed.

Section Search.
Variables (o : chunk) (bs : bindings) (extra : dict string) (f : Q * Q) (finst : nat) (recent : list stimulus) (search : chunk)
  (t : option string) (px py : place).
Hypothesis (Ws : wf_chunk search) (Fs : fact search)
  (Ss : forall n w, dget (cslots search) n = Some (Some w) <-> exists s, w = text_slot s /\ wants o bs n (Some s))
  (A : asks_for o bs t px py) (G : py = Nearest -> px <> Anywhere).

Lemma wants_slot_text n x : wants o bs n x -> (forall s, wants o bs n (Some s) -> x = Some s) -> slot_text (dget (cslots search) n) = x.
Proof.
  intros Hw U. destruct x as [s|].
  - assert (E : dget (cslots search) n = Some (Some (text_slot s))) by (apply Ss; eauto). rewrite E. reflexivity.
  - unfold slot_text. destruct (dget (cslots search) n) as [[w|]|] eqn:E; try reflexivity.
    apply Ss in E. destruct E as (s & -> & Hs). apply U in Hs. discriminate.
Qed.
Lemma wants_fun n x s : wants o bs n x -> wants o bs n (Some s) -> x = Some s.
Proof.
  intros Hx Hs. destruct x as [x|].
  - assert (E1 : dget (cslots search) n = Some (Some (text_slot x))) by (apply Ss; eauto).
    assert (E2 : dget (cslots search) n = Some (Some (text_slot s))) by (apply Ss; eauto). rewrite E1 in E2. injection E2 as ->. reflexivity.
  - inversion Hx as [U|]. inversion Hs as [|w s' M]. subst. exfalso. exact (U w M).
Qed.

Definition adm := admissible o bs extra finst recent t px py.

Lemma text_spec st : match text_skips (dget (cslots search) "value") st with
  | Ok b => b = false <-> (forall s, t = Some s -> sttext st = Some s)
  | Err _ => dget (cslots search) "value" = None \/ (sttext st = None /\ t <> None)
  end.
Proof.
  destruct A as (At & _). unfold text_skips. destruct t as [s|].
  - assert (E : dget (cslots search) "value" = Some (Some (text_slot s))) by (apply Ss; eauto). rewrite E.
    destruct (sttext st) as [u|]; [|right; split; [reflexivity|discriminate]]. simpl vvals.
    change (val_eqb (VStr s) (VStr u)) with (String.eqb s u). destruct (String.eqb_spec s u) as [->|N]; simpl; split; intros H; try reflexivity; try discriminate.
    + intros s' E'. injection E' as ->. reflexivity.
    + specialize (H s eq_refl). injection H as ->. congruence.
  - destruct (dget (cslots search) "value") as [[w|]|] eqn:E; [|split; [intros _ s X; discriminate|reflexivity]|auto].
    exfalso. apply Ss in E. destruct E as (s & -> & Hs). pose proof (wants_fun _ _ _ At Hs). discriminate.
Qed.

(** One round: nothing changes unless the object is admissible and no worse than before. *)
Lemma look_step r acc st r' acc' : registry_ok r -> proper_stim st ->
  look f finst recent search extra r acc st = (r', Ok acc') ->
  registry_ok r' /\
  ((fchunk acc' = fchunk acc /\ (~ adm st \/ exists c z, fchunk acc = Some (c, z) /\ worse px py f (spot st) z) /\
     (fstim acc' = fstim acc \/ (fstim acc' = Some st /\ ~ forall n s, shows st n s -> wants o bs n (Some s)))) \/
   (adm st /\ (forall c z, fchunk acc = Some (c, z) -> ~ worse px py f (spot st) z) /\
    exists c, fchunk acc' = Some (c, spot st) /\ fstim acc' = Some st /\ locates c st)).
Proof.
  intros Ro P. unfold look. destruct A as (At & Ax & Ay).
  rewrite (wants_slot_text "screen_x" (place_text px)), (wants_slot_text "screen_y" (place_text py)) by (auto; intros; eapply wants_fun; eauto).
  rewrite position_spot.
  destruct (test_skips extra finst recent st) eqn:E1.
  { intros H. injection H as <- <-. split; [exact Ro|]. left. split; [reflexivity|]. split; [|auto]. left. intros (X & _). apply attention_spec in X. congruence. }
  pose proof (text_spec st) as T. destruct (text_skips (dget (cslots search) "value") st) as [[|]|e] eqn:E2; [| |discriminate].
  { intros H. injection H as <- <-. split; [exact Ro|]. left. split; [reflexivity|]. split; [|auto]. left. intros (_ & X & _). apply T in X. discriminate. }
  destruct (abs_skips (place_text px) (fst (spot st))) eqn:E3.
  { intros H. injection H as <- <-. split; [exact Ro|]. left. split; [reflexivity|]. split; [|auto]. left. intros (_ & _ & X & _).
    apply lies_spec in X. destruct X as (X & _). apply abs_spec in X. congruence. }
  destruct (abs_skips (place_text py) (snd (spot st))) eqn:E4.
  { intros H. injection H as <- <-. split; [exact Ro|]. left. split; [reflexivity|]. split; [|auto]. left. intros (_ & _ & _ & X & _).
    apply lies_spec in X. destruct X as (X & _). apply abs_spec in X. congruence. }
  destruct (rel_spec px (fst (spot st))) as (b1 & -> & B1). destruct b1.
  { intros H. injection H as <- <-. split; [exact Ro|]. left. split; [reflexivity|]. split; [|auto]. left. intros (_ & _ & X & _).
    apply lies_spec in X. destruct X as (_ & X). apply B1 in X. discriminate. }
  destruct (rel_spec py (snd (spot st))) as (b2 & -> & B2). destruct b2.
  { intros H. injection H as <- <-. split; [exact Ro|]. left. split; [reflexivity|]. split; [|auto]. left. intros (_ & _ & _ & X & _).
    apply lies_spec in X. destruct X as (_ & X). apply B2 in X. discriminate. }
  assert (Lx : lies px (fst (spot st))) by (apply lies_spec; split; [apply abs_spec; exact E3|apply B1; reflexivity]).
  assert (Ly : lies py (snd (spot st))) by (apply lies_spec; split; [apply abs_spec; exact E4|apply B2; reflexivity]).
  match goal with |- (if ?x then _ else _) = _ -> _ => set (skip := x) end.
  assert (Sk : skip = true <-> exists c z, fchunk acc = Some (c, z) /\ worse px py f (spot st) z).
  { unfold skip. destruct (fchunk acc) as [[c z]|].
    - rewrite worse_spec.
      + split; [intros H; exists c, z; auto|]. intros (c' & z' & E & H). injection E as -> ->. exact H.
      + intros N. destruct (place_text px) as [s|] eqn:Ep; [|exfalso; exact (N (no_text _ Ep))].
        exists (text_slot s). apply Ss. eauto.
      + exact G.
    - assert (F0 : closest_skips (dget (cslots search) "screen_x") (place_text px) (place_text py) f None (spot st) = false) by (unfold closest_skips; destruct (dget (cslots search) "screen_x") as [[|]|]; reflexivity).
      rewrite !sup_eqb, F0. simpl. split; [discriminate|]. intros (c & z & E & _). discriminate. }
  destruct skip.
  { intros H. injection H as <- <-. split; [exact Ro|]. left. split; [reflexivity|]. split; [|auto]. right. apply Sk. reflexivity. }
  destruct (location_chunk r st false) as [[r1 visible]|e] eqn:L; [|discriminate].
  destruct (fits_spec _ _ _ _ _ _ _ Ws Fs Ss Ro P L) as (Ro1 & Fit).
  destruct (snd (chunk_le nobind visible search)).
  - destruct (location_chunk r1 st true) as [[r2 c]|e] eqn:L2; [|discriminate]. intros H. injection H as <- <-. split.
    { eapply mk_chunk_wf; [exact Ro1| |exact L2]. intros n x Hin. apply args_strings in Hin. destruct Hin as (s & ->). exact I. }
    right. split.
    + split; [apply attention_spec; exact E1|]. split; [apply T; reflexivity|]. split; [exact Lx|]. split; [exact Ly|]. apply Fit. reflexivity.
    + split.
      * intros c' z E X. assert (Y : false = true) by (apply Sk; eauto). discriminate.
      * exists c. split; [reflexivity|]. split; [reflexivity|]. eapply location_locates; eassumption.
  - intros H. injection H as <- <-. split; [exact Ro1|]. left. split; [reflexivity|]. split.
    + left. intros (_ & _ & _ & _ & X). apply Fit in X. discriminate.
    + right. split; [reflexivity|]. intros X. apply Fit in X. discriminate.
Qed.

(** No admissible object among [l] is better. *)
Definition unbeaten (l : list stimulus) (z : Z * Z) : Prop :=
  forall s, In s l -> adm s ->
    (penalty_x px f z <= penalty_x px f (spot s) /\ penalty_y py f z <= penalty_y py f (spot s)) \/
    penalty_x px f z < penalty_x px f (spot s) \/ penalty_y py f z < penalty_y py f (spot s).
Definition so_far (l : list stimulus) (acc : found) : Prop :=
  match fchunk acc with
  | None => forall s, In s l -> ~ adm s
  | Some (c, z) => (exists s, In s l /\ adm s /\ z = spot s /\ locates c s) /\ unbeaten l z
  end.

Lemma look_all_spec l : forall l0 r acc r' acc', registry_ok r -> Forall proper_stim l ->
  so_far l0 acc -> look_all f finst recent search extra r acc l = (r', Ok acc') -> so_far (l0 ++ l) acc'.
Proof.
  induction l as [|st l IH]; intros l0 r acc r' acc' Ro Fp S0 H; simpl in H.
  - injection H as <- <-. rewrite app_nil_r. exact S0.
  - inversion Fp as [|? ? P Fp']. subst. destruct (look f finst recent search extra r acc st) as [r1 [acc1|e]] eqn:E; [|discriminate].
    destruct (look_step r acc st r1 acc1 Ro P E) as (Ro1 & Hs).
    replace (l0 ++ st :: l)%list with ((l0 ++ [st]) ++ l)%list by (rewrite <- app_assoc; reflexivity).
    apply (IH (l0 ++ [st])%list r1 acc1 r' acc' Ro1 Fp'); [|exact H]. clear IH H E Fp' Fp. unfold so_far in *.
    destruct Hs as [(Ec & Hs & _)|(Ad & Nw & c & Ec & Es & Lc)].
    + rewrite Ec. destruct (fchunk acc) as [[c z]|].
      * destruct S0 as ((s & Hin & S0) & U). split; [exists s; rewrite in_app_iff; auto|].
        intros s' Hin' Ad. apply in_app_or in Hin'. destruct Hin' as [Hin'|[<-|[]]]; [apply U; assumption|].
        destruct Hs as [Hs|(c' & z' & E & W)]; [contradiction|]. injection E as <- <-. right. exact W.
      * intros s Hin. apply in_app_or in Hin. destruct Hin as [Hin|[<-|[]]]; [apply S0; exact Hin|].
        destruct Hs as [Hs|(c' & z' & E & _)]; [exact Hs|discriminate].
    + rewrite Ec. split; [exists st; rewrite in_app_iff; simpl; auto|].
      intros s Hin As. apply in_app_or in Hin. destruct Hin as [Hin|[<-|[]]]; [|left; split; apply Qle_refl].
      destruct (fchunk acc) as [[c0 z0]|]; [|exfalso; exact (S0 s Hin As)]. destruct S0 as (_ & U). specialize (U s Hin As).
      specialize (Nw c0 z0 eq_refl). unfold worse in Nw.
      assert (X1 : penalty_x px f (spot st) <= penalty_x px f z0) by (apply Qnot_lt_le; tauto).
      assert (X2 : penalty_y py f (spot st) <= penalty_y py f z0) by (apply Qnot_lt_le; tauto).
      destruct U as [[U1 U2]|[U|U]]; [left; split|right; left|right; right]; lra.
Qed.
End Search.

(** ** Whole searches *)

Definition dominated (px py : place) (f : Q * Q) (z z' : Z * Z) : Prop :=
  penalty_x px f z' <= penalty_x px f z /\ penalty_y py f z' <= penalty_y py f z /\
  (penalty_x px f z' < penalty_x px f z \/ penalty_y py f z' < penalty_y py f z).

Lemma find_inv r f finst recent stims o bs extra r' res rst :
  visual_find r f finst recent stims o bs extra = (r', Ok (res, rst)) ->
  exists args r1 search l acc, resolve_slots bs false (removeunused o) = Ok args /\
    mk_chunk r "_visuallocation" args = Ok (r1, search) /\ stims = Some l /\
    look_all f finst recent search extra r1 (MkFound None None) l = (r', Ok acc) /\
    res = match fchunk acc with Some (c, _) => Some c | None => None end /\ rst = fstim acc.
Proof.
  unfold visual_find. destruct (resolve_slots bs false (removeunused o)) as [args|]; [|discriminate].
  destruct (mk_chunk r "_visuallocation" args) as [[r1 search]|] eqn:M; [|discriminate].
  destruct stims as [l|]; [|discriminate].
  destruct (look_all f finst recent search extra r1 (MkFound None None) l) as [r2 [acc|]] eqn:E; [|discriminate].
  intros H. injection H as <- <- <-. exists args, r1, search, l, acc. rewrite M. auto 8.
Qed.

Theorem find_exact r f finst recent l o bs extra t px py r' res rst :
  registry_ok r -> texts_only o bs -> asks_for o bs t px py -> (py = Nearest -> px <> Anywhere) -> Forall proper_stim l ->
  visual_find r f finst recent (Some l) o bs extra = (r', Ok (res, rst)) ->
  match res with
  | None => forall s, In s l -> ~ admissible o bs extra finst recent t px py s
  | Some c => exists s, In s l /\ admissible o bs extra finst recent t px py s /\ locates c s /\
      forall s', In s' l -> admissible o bs extra finst recent t px py s' -> ~ dominated px py f (spot s) (spot s')
  end.
Proof.
  intros Ro To A G Fp H. destruct (find_inv _ _ _ _ _ _ _ _ _ _ _ H) as (args & r1 & search & l' & acc & Rs & M & El & La & -> & _).
  injection El as <-. destruct (search_slots _ _ _ _ _ _ To Ro Rs M) as (Ro1 & Ws & Fs & Ss).
  pose proof (look_all_spec o bs extra f finst recent search t px py Ws Fs Ss A G l [] r1 (MkFound None None) r' acc Ro1 Fp) as X.
  specialize (X (fun s (F : In s []) => match F with end) La). unfold so_far in X. simpl app in X.
  destruct (fchunk acc) as [[c z]|]; [|exact X]. destruct X as ((s & Hin & Ad & -> & Lc) & U).
  exists s. split; [exact Hin|]. split; [exact Ad|]. split; [exact Lc|]. intros s' Hin' Ad' (D1 & D2 & D3).
  destruct (U s' Hin' Ad') as [[U1 U2]|[U1|U1]]; destruct D3; lra.
Qed.

(** With one superlative the object that was found is the best one. *)
Theorem find_best r f finst recent l o bs extra t px py r' c rst :
  registry_ok r -> texts_only o bs -> asks_for o bs t px py -> (py = Nearest -> px <> Anywhere) -> Forall proper_stim l ->
  visual_find r f finst recent (Some l) o bs extra = (r', Ok (Some c, rst)) ->
  exists s, In s l /\ admissible o bs extra finst recent t px py s /\ locates c s /\
    forall s', In s' l -> admissible o bs extra finst recent t px py s' ->
      (superlative py = false -> penalty_x px f (spot s) <= penalty_x px f (spot s')) /\
      (superlative px = false -> penalty_y py f (spot s) <= penalty_y py f (spot s')) /\
      (px = Nearest -> py = Nearest -> penalty_x px f (spot s) <= penalty_x px f (spot s')).
Proof.
  intros Ro To A G Fp H.
  assert (Z : forall p a b, superlative p = false -> penalty p a b = 0) by (intros [] a b E; try discriminate; reflexivity).
  pose proof (find_exact _ _ _ _ _ _ _ _ _ _ _ _ _ _ Ro To A G Fp H) as X. cbv iota beta in X.
  destruct X as (s & Hin & Ad & Lc & U). exists s. split; [exact Hin|]. split; [exact Ad|]. split; [exact Lc|].
  intros s' Hin' Ad'. specialize (U s' Hin' Ad'). unfold dominated in U. split; [|split].
  - intros E. apply Qnot_lt_le. intros L. apply U. unfold penalty_y. rewrite !(Z _ _ _ E). split; [lra|]. split; [lra|]. left. exact L.
  - intros E. apply Qnot_lt_le. intros L. apply U. unfold penalty_x. rewrite !(Z _ _ _ E). split; [lra|]. split; [lra|]. right. exact L.
  - intros -> ->. apply Qnot_lt_le. intros L. apply U.
    assert (Y : forall z, penalty_y Nearest f z == penalty_x Nearest f z) by (intros z; unfold penalty_x, penalty_y, penalty, sq; simpl; ring).
    rewrite !Y. split; [lra|]. split; [lra|]. left. exact L.
Qed.

(** If the visible features of all objects are asked for, the object that is reported is the one that was found. *)
Theorem find_reports r f finst recent l o bs extra t px py r' res rst :
  registry_ok r -> texts_only o bs -> asks_for o bs t px py -> (py = Nearest -> px <> Anywhere) -> Forall proper_stim l ->
  (forall s n x, In s l -> shows s n x -> wants o bs n (Some x)) ->
  visual_find r f finst recent (Some l) o bs extra = (r', Ok (res, rst)) ->
  (res = None /\ rst = None) \/
  exists c s, res = Some c /\ rst = Some s /\ In s l /\ admissible o bs extra finst recent t px py s /\ locates c s.
Proof.
  intros Ro To A G Fp Hv H. destruct (find_inv _ _ _ _ _ _ _ _ _ _ _ H) as (args & r1 & search & l' & acc & Rs & M & El & La & -> & ->).
  injection El as <-. destruct (search_slots _ _ _ _ _ _ To Ro Rs M) as (Ro1 & Ws & Fs & Ss). clear H M Rs Ro.
  set (good := fun acc => (fchunk acc = None /\ fstim acc = None) \/
    exists c s, fchunk acc = Some (c, spot s) /\ fstim acc = Some s /\ In s l /\ admissible o bs extra finst recent t px py s /\ locates c s).
  assert (X : good acc); [|unfold good in X; destruct X as [[-> ->]|(c & s & -> & -> & X)]; [auto|right; exists c, s; auto]].
  assert (G0 : good (MkFound None None)) by (left; auto).
  assert (I : forall s, In s l -> In s l) by auto. revert I Fp La G0. generalize l at 1 3 4 as m. generalize (MkFound None None) as a0.
  intros a0 m. revert r1 a0 Ro1. induction m as [|st m IH]; intros r1 a0 Ro1 I Fp La G0; simpl in La; [injection La as _ <-; exact G0|].
  inversion Fp as [|? ? P Fp']. subst. destruct (look f finst recent search extra r1 a0 st) as [r2 [a1|e]] eqn:E; [|discriminate].
  pose proof (look_step o bs extra f finst recent search t px py Ws Fs Ss A G r1 a0 st r2 a1 Ro1 P E) as (Ro2 & Hs).
  apply (IH r2 a1 Ro2); [intros s Hin; apply I; right; exact Hin|exact Fp'|exact La|].
  unfold good. destruct Hs as [(Ec & _ & Hs)|(Ad & _ & c & Ec & Es & Lc)].
  - destruct Hs as [Hs|[_ Hs]]; [|exfalso; apply Hs; intros n x; apply Hv, I; left; reflexivity]. rewrite Ec, Hs. exact G0.
  - right. exists c, st. split; [exact Ec|]. split; [exact Es|]. split; [apply I; left; reflexivity|]. split; [exact Ad|exact Lc].
Qed.

(** ** When a search returns *)

Definition known_stim (r : registry) (st : stimulus) : Prop :=
  exists ct, dget r (match stloctype st with Some t => t | None => "_visuallocation" end) = Some ct /\
    In "screen_x" (ctfields ct) /\ In "screen_y" (ctfields ct) /\ forall n s, shows st n s -> In n (ctfields ct).

Lemma args_keys st pos n x : proper_stim st -> In (n, x) (location_args st pos) ->
  exists s, x = RStr s /\ (shows st n s \/ n = "screen_x" /\ s = numeral (fst (spot st)) \/ n = "screen_y" /\ s = numeral (snd (spot st))).
Proof.
  intros P Hin. destruct (args_strings _ _ _ _ Hin) as (s & ->). exists s. split; [reflexivity|].
  assert (B : In (n, RStr s) (location_args st false) -> shows st n s).
  { pose proof P as (Nd & Nt & _). unfold location_args. cbv zeta. intros H. apply in_app_or in H.
    assert (V : forall n, smem n (match stvisible st with Some l => l | None => [] end) = true -> exists l, stvisible st = Some l /\ In n l).
    { intros m Hm. apply smem_In in Hm. destruct (stvisible st) as [l|]; [eauto|contradiction]. }
    destruct H as [H|H].
    - destruct (sttext st) as [u|] eqn:Et; [|contradiction]. destruct (smem "text" _) eqn:Ev; [|contradiction].
      destruct H as [H|[]]. injection H as <- <-. apply V in Ev. destruct Ev as (l & E1 & E2). exists l. auto.
    - apply in_map_iff in H. destruct H as ([k v] & E & H). injection E as <- <-. apply filter_In in H. destruct H as [H Ev].
      apply V in Ev. destruct Ev as (l & E1 & E2). exists l. auto. }
  destruct pos; [|auto]. unfold location_args in Hin.
  match type of Hin with In _ (dset (dset ?d _ _) _ _) => change (In (n, RStr s) (dupdate d [("screen_x", RStr (int_str (fst (position st)))); ("screen_y", RStr (int_str (snd (position st))))])) in Hin end.
  apply dupdate_In in Hin. rewrite position_spot in Hin. destruct Hin as [Hin|[E|[E|[]]]]; [auto| |]; injection E as <- <-; auto.
Qed.
Lemma location_total r st pos : proper_stim st -> known_stim r st -> exists c, location_chunk r st pos = Ok (r, c).
Proof.
  intros P (ct & E & Kx & Ky & K). apply (mk_chunk_total _ _ _ ct E).
  - intros n x Hin. destruct (args_keys _ _ _ _ P Hin) as (s & -> & H). exists (text_slot s). cbn [convert]. apply split_plain.
    destruct H as [H|[[_ ->]|[_ ->]]]; [apply (proj2 (proj2 P) n s H)|apply numeral_plain|apply numeral_plain].
  - intros n Hn. apply in_map_iff in Hn. destruct Hn as ([n' x] & En & Hin). simpl in En. subst n'.
    destruct (args_keys _ _ _ _ P Hin) as (s & -> & H). destruct H as [H|[[-> _]|[-> _]]]; [apply (K n s H)|exact Kx|exact Ky].
Qed.

Lemma look_all_total o bs extra f finst recent search t px py l : forall r acc,
  wf_chunk search -> fact search ->
  (forall n w, dget (cslots search) n = Some (Some w) <-> exists s, w = text_slot s /\ wants o bs n (Some s)) ->
  asks_for o bs t px py -> dget (cslots search) "value" <> None ->
  Forall proper_stim l -> Forall (known_stim r) l -> (t <> None -> Forall (fun s => sttext s <> None) l) ->
  exists acc', look_all f finst recent search extra r acc l = (r, Ok acc').
Proof.
  induction l as [|st l IH]; intros r acc Ws Fs Ss A Hv Fp Fk Ft; simpl; [eauto|].
  inversion Fp as [|? ? P Fp']. inversion Fk as [|? ? K Fk']. subst.
  assert (X : exists acc1, look f finst recent search extra r acc st = (r, Ok acc1)).
  { unfold look. pose proof A as (At & Ax & Ay).
    rewrite (wants_slot_text o bs search Ss "screen_x" (place_text px)), (wants_slot_text o bs search Ss "screen_y" (place_text py)) by (auto; intros; eapply wants_fun; eauto).
    destruct (test_skips _ _ _ _); [eauto|]. pose proof (text_spec o bs search t px py Ss A st) as T.
    destruct (text_skips _ _) as [[|]|e]; [eauto| |].
    2:{ exfalso. destruct T as [T|[T1 T2]]; [contradiction|]. specialize (Ft T2). inversion Ft. subst. congruence. }
    destruct (abs_skips _ _); [eauto|]. destruct (abs_skips _ _); [eauto|].
    destruct (rel_spec px (fst (position st))) as (b1 & -> & _). destruct b1; [eauto|].
    destruct (rel_spec py (snd (position st))) as (b2 & -> & _). destruct b2; [eauto|].
    match goal with |- context [if ?x then (r, Ok acc) else _] => destruct x end; [eauto|].
    destruct (location_total r st false P K) as (c & ->). destruct (snd _); [|eauto].
    destruct (location_total r st true P K) as (c' & ->). eauto. }
  destruct X as (acc1 & ->). apply IH; auto. intros Ht. specialize (Ft Ht). inversion Ft. assumption.
Qed.

Theorem find_returns r f finst recent l o bs extra t px py ct :
  registry_ok r -> texts_only o bs -> asks_for o bs t px py ->
  (forall n w, mentions o n w -> not_empty_bound bs w /\ ~ illegal bs false w) ->
  dget r "_visuallocation" = Some ct -> In "value" (ctfields ct) -> (forall n, In n (dkeys (cslots o)) -> In n (ctfields ct)) ->
  Forall proper_stim l -> Forall (known_stim r) l -> (t <> None -> Forall (fun s => sttext s <> None) l) ->
  exists res rst, visual_find r f finst recent (Some l) o bs extra = (r, Ok (res, rst)).
Proof.
  intros Ro To A Hm Et Hv Hk Fp Fk Ft. unfold visual_find.
  destruct (resolve_slots_total bs false (removeunused o)) as (args & R).
  { intros n s Hin. apply used_mentions in Hin. destruct Hin as (v & -> & M). destruct (Hm n v M) as (H2 & H3).
    destruct To as (No & nd & nm & W).
    assert (Nb : negvars_bound bs false v).
    { right. right. destruct (W n) as (x & Hx). destruct Hx as [U|w s Mw _ _ Vn]; [exfalso; exact (U v M)|].
      assert (w = v) as ->; [|rewrite Vn; intros y []].
      destruct Mw as (Mw & _). destruct M as (M & _). apply (dget_NoDup _ _ _ No) in Mw. apply (dget_NoDup _ _ _ No) in M. congruence. }
    pose proof (resolve_exact bs (Some v) false nd (nm n v M) H2 Nb) as X.
    destruct (check_bound_vars bs (Some v) false) as [u|e]; [eauto|]. destruct X as [_ X]. contradiction. }
  rewrite R. pose proof (resolve_slots_keys _ _ _ _ R) as K. pose proof (proj2 (resolve_slots_In _ _ _ _ R)) as RI.
  destruct (mk_chunk_total r "_visuallocation" args ct Et) as (search & M).
  { intros n x Hin. destruct (RI n x Hin) as (s0 & u & _ & _ & ->). eexists. reflexivity. }
  { intros n Hin. apply Hk. rewrite K in Hin. apply in_map_iff in Hin. destruct Hin as ([n' x] & E & Hin). simpl in E. subst n'.
    apply used_mentions in Hin. destruct Hin as (v & -> & (Hu & _)). apply in_map_iff. exists (n, Some v). auto. }
  rewrite M. destruct (search_slots _ _ _ _ _ _ To Ro R M) as (_ & Ws & Fs & Ss).
  assert (V : dget (cslots search) "value" <> None).
  { apply mk_chunk_spec in M. destruct M as (_ & _ & _ & M & _). intros X. apply dget_None in X. apply X, M. right. exists ct. auto. }
  destruct (look_all_total o bs extra f finst recent search t px py l r (MkFound None None) Ws Fs Ss A V Fp Fk Ft) as (acc & ->). eauto.
Qed.

(** ** Comparisons with variables *)

Theorem find_comparison r f finst recent stims o bs extra n w m x v :
  In n ["screen_x"; "screen_y"] -> In (n, Some w) (cslots o) -> vvals w = VStr m -> m = "<" \/ m = ">" ->
  vvar w = Some x -> x <> "" -> dget (bpos bs) x = Some v -> is_relational v = false ->
  exists r' e, visual_find r f finst recent stims o bs extra = (r', Err e).
Proof.
  intros _ Hin Hm Em Hx Nx Hv Hr. unfold visual_find.
  destruct (resolve_slots bs false (removeunused o)) as [args|e] eqn:R; [|eauto]. exfalso.
  assert (M : In (n, Some w) (removeunused o)).
  { apply used_mentions. exists w. split; [reflexivity|]. split; [exact Hin|]. right. left. eauto. }
  destruct (proj1 (resolve_slots_In _ _ _ _ R) n (Some w) M) as (q & E & _).
  destruct (comparison_rejected bs x v m (Some w) false) as (e & Ee); try assumption; [|congruence].
  simpl. destruct w; simpl in *. congruence.
Qed.

(** ** Negations *)

(** The text is only negated. *)
Lemma negated_text_slot bs w r : NoDup (dkeys (bpos bs)) -> no_marks bs w -> vvals w = VNone -> vvar w = None ->
  check_bound_vars bs (Some w) false = Ok r -> vvals r = VNone.
Proof.
  intros Nd Nm V1 V2 E. destruct (check_ok bs (Some w) false r Nd Nm E) as (_ & P & _). inversion P as [x v A B C|A B|A B]; simpl in *; congruence.
Qed.
Theorem find_negated_text r f finst recent l o bs extra w r' res rst :
  names_distinct o -> NoDup (dkeys (bpos bs)) -> marks_free bs o ->
  mentions o "value" w -> vvals w = VNone -> vvar w = None ->
  visual_find r f finst recent (Some l) o bs extra = (r', Ok (res, rst)) -> res = None.
Proof.
  intros No Nd Nm M V1 V2 H. destruct (find_inv _ _ _ _ _ _ _ _ _ _ _ H) as (args & r1 & search & l' & acc & Rs & Mk & El & La & -> & _).
  injection El as <-. destruct (resolve_get bs false o args No Nd Nm Rs) as (R1 & _). destruct (R1 _ _ M) as (q & Eq & (Pq & _) & _).
  assert (Vq : vvals q = VNone) by (inversion Pq as [x v A B C|A B|A B]; simpl in *; congruence).
  apply mk_chunk_spec in Mk. destruct Mk as (_ & M1 & _). destruct (M1 _ _ Eq) as (q' & C & D). cbn in C. injection C as <-.
  assert (X : fchunk acc = None); [|rewrite X; reflexivity].
  revert La. assert (G0 : fchunk (MkFound None None) = None) by reflexivity. revert G0. generalize (MkFound None None) as a0. revert r1.
  clear H R1 M1. induction l as [|st l IH]; intros r1 a0 G0 La; simpl in La; [injection La as _ <-; exact G0|].
  destruct (look f finst recent search extra r1 a0 st) as [r2 [a1|e]] eqn:E; [|discriminate].
  apply (IH r2 a1); [|exact La]. revert E. unfold look. rewrite D.
  destruct (test_skips _ _ _ _); [intros E; injection E as _ <-; exact G0|].
  unfold text_skips. rewrite Vq. destruct (sttext st); [|discriminate]. simpl. intros E. injection E as _ <-. exact G0.
Qed.

(** ** Automatic search *)

Definition gap (f : Q * Q) (st : stimulus) : Q := (sq (fst f) (stx st) + sq (snd f) (sty st))%Q.

Theorem autosearch_exact r f recent l r' res : Forall proper_stim l -> autosearch r f recent None l = (r', Ok res) ->
  match res with
  | None => forall s, In s l -> attended recent s
  | Some (c, s) => In s l /\ ~ attended recent s /\ locates c s /\
      forall s', In s' l -> ~ attended recent s' -> gap f s <= gap f s'
  end.
Proof.
  intros Fp.
  assert (At : forall s, stim_in s recent = true <-> attended recent s) by (intros s; unfold stim_in, attended; rewrite existsb_exists; reflexivity).
  assert (Gn : forall m l0 acc r0, (forall s, In s m -> In s l) ->
    match acc with None => forall s, In s l0 -> attended recent s
      | Some (c, s) => In s l /\ ~ attended recent s /\ locates c s /\ forall s', In s' l0 -> ~ attended recent s' -> gap f s <= gap f s' end ->
    autosearch r0 f recent acc m = (r', Ok res) ->
    match res with None => forall s, In s (l0 ++ m) -> attended recent s
      | Some (c, s) => In s l /\ ~ attended recent s /\ locates c s /\ forall s', In s' (l0 ++ m) -> ~ attended recent s' -> gap f s <= gap f s' end).
  { induction m as [|st m IH]; intros l0 acc r0 I S0 H; simpl in H.
    { injection H as _ <-. rewrite app_nil_r. exact S0. }
    assert (I' : forall s, In s m -> In s l) by (intros s Hs; apply I; right; exact Hs).
    assert (Is : In st l) by (apply I; left; reflexivity).
    replace (l0 ++ st :: m)%list with ((l0 ++ [st]) ++ m)%list by (rewrite <- app_assoc; reflexivity).
    destruct (stim_in st recent) eqn:Er.
    - apply (IH (l0 ++ [st])%list acc r0 I'); [|exact H]. destruct acc as [[c s]|].
      + destruct S0 as (A & B & C & D). split; [exact A|]. split; [exact B|]. split; [exact C|]. intros s' Hs Hn. apply in_app_or in Hs.
        destruct Hs as [Hs|[<-|[]]]; [auto|]. exfalso. apply Hn, At. exact Er.
      + intros s Hs. apply in_app_or in Hs. destruct Hs as [Hs|[<-|[]]]; [auto|]. apply At. exact Er.
    - assert (Ns : ~ attended recent st) by (intros X; apply At in X; congruence).
      destruct acc as [[c s]|].
      + destruct (gtQ (dist2q f st) (dist2q f s)) eqn:Eg.
        * apply (IH (l0 ++ [st])%list (Some (c, s)) r0 I'); [|exact H].
          destruct S0 as (A & B & C & D). split; [exact A|]. split; [exact B|]. split; [exact C|]. intros s' Hs Hn. apply in_app_or in Hs.
          destruct Hs as [Hs|[<-|[]]]; [auto|]. apply gtQ_spec in Eg. unfold dist2q in Eg. unfold gap, sq. lra.
        * destruct (location_chunk r0 st true) as [[r2 c2]|] eqn:L; [|discriminate].
          apply (IH (l0 ++ [st])%list (Some (c2, st)) r2 I'); [|exact H].
          destruct S0 as (A & B & C & D). split; [exact Is|]. split; [exact Ns|].
          split; [rewrite Forall_forall in Fp; eapply location_locates; [apply Fp; exact Is|exact L]|].
          intros s' Hs Hn. apply in_app_or in Hs. destruct Hs as [Hs|[<-|[]]]; [|apply Qle_refl].
          specialize (D s' Hs Hn). assert (X : dist2q f st <= dist2q f s) by (apply Qnot_lt_le; intros X; apply gtQ_spec in X; congruence).
          unfold dist2q in X. unfold gap, sq in *. lra.
      + destruct (location_chunk r0 st true) as [[r2 c2]|] eqn:L; [|discriminate].
        apply (IH (l0 ++ [st])%list (Some (c2, st)) r2 I'); [|exact H]. split; [exact Is|]. split; [exact Ns|].
        split; [rewrite Forall_forall in Fp; eapply location_locates; [apply Fp; exact Is|exact L]|].
        intros s' Hs Hn. apply in_app_or in Hs. destruct Hs as [Hs|[<-|[]]]; [|apply Qle_refl]. exfalso. apply Hn. apply S0. exact Hs. }
  intros H. apply (Gn l [] None r); [auto|intros s []|exact H].
Qed.

(** ** Attending to what was found *)

(** A request to attend to the location [c]. *)
Definition attends (o : chunk) (bs : bindings) (c : chunk) : Prop :=
  names_distinct o /\ NoDup (dkeys (bpos bs)) /\ marks_free bs o /\
  (exists w, mentions o "screen_pos" w /\ ResolveFacts.positive bs w (VChunk c)) /\ exists w, mentions o "cmd" w.

Definition whole (st : stimulus) : Prop := stx st == inject_Z (pixel (stx st)) /\ sty st == inject_Z (pixel (sty st)).
Definition same_place (a b : stimulus) : Prop := stx a == stx b /\ sty a == sty b.

Lemma target_spec o bs c args st : attends o bs c -> locates c st -> resolve_slots bs true (removeunused o) = Ok args ->
  (exists p, target args = Ok p /\ fst p == inject_Z (fst (spot st)) /\ snd p == inject_Z (snd (spot st))) /\
  exists x, dget args "cmd" = Some x.
Proof.
  intros (No & nd & nm & (w & Mw & Pw) & (w' & Mw')) (Lx & Ly & _) R.
  destruct (resolve_get bs true o args No nd nm R) as (R1 & _). destruct (R1 _ _ Mw) as (q & Eq & (Pq & _) & _).
  destruct (R1 _ _ Mw') as (q' & Eq' & _). split; [|eauto].
  unfold target. rewrite Eq. rewrite <- (positive_fun bs w _ _ nd Pw Pq). unfold coord.
  destruct Lx as (wx & -> & -> & _). destruct Ly as (wy & -> & -> & _). unfold float_text. rewrite !int_text_numeral. cbn [rbind].
  eexists. split; [reflexivity|]. simpl. split; reflexivity.
Qed.

Theorem attend_found r l o bs c st r' v rst : attends o bs c -> locates c st -> In st l -> whole st ->
  (forall s, In s l -> same_place s st -> s = st) ->
  shift r (Some l) o bs = (r', Ok (v, rst)) -> rst = st.
Proof.
  intros A L Hin Wh U. unfold shift. destruct (resolve_slots bs true (removeunused o)) as [args|] eqn:R; [|discriminate].
  destruct (target_spec _ _ _ _ _ A L R) as ((p & -> & P1 & P2) & (x & Ex)).
  destruct l as [|s0 l0] eqn:El; [contradiction|]. rewrite <- El in *. clear s0 l0 El.
  destruct (List.find (at_target p) (rev l)) as [s|] eqn:F; [|discriminate].
  rewrite Ex. destruct (visual_chunk r s (Some x)) as [[r1 c1]|]; [|discriminate]. intros H. injection H as _ _ <-.
  apply find_some in F. destruct F as [F1 F2]. apply in_rev in F1. apply U; [exact F1|].
  unfold at_target in F2. apply andb_true_iff in F2. destruct F2 as [F2 F3]. apply Qeq_bool_iff in F2. apply Qeq_bool_iff in F3.
  destruct Wh as [W1 W2]. unfold spot in *. simpl in *. unfold same_place. rewrite W1, W2, F2, F3, P1, P2. split; reflexivity.
Qed.

(** An object that is not at a whole position cannot be attended to, if nothing else is at the pixel. *)
Theorem attend_fractional r l o bs c st : attends o bs c -> locates c st ->
  (forall s, In s l -> ~ (stx s == inject_Z (fst (spot st)) /\ sty s == inject_Z (snd (spot st)))) ->
  exists r' e, shift r (Some l) o bs = (r', Err e).
Proof.
  intros A L N. unfold shift. destruct (resolve_slots bs true (removeunused o)) as [args|] eqn:R; [|eauto].
  destruct (target_spec _ _ _ _ _ A L R) as ((p & -> & P1 & P2) & (x & Ex)). destruct l as [|s0 l0] eqn:El; [eauto|]. rewrite <- El in *. clear s0 l0 El.
  destruct (List.find (at_target p) (rev l)) as [s|] eqn:F; [|eauto].
  exfalso. apply find_some in F. destruct F as [F1 F2]. apply in_rev in F1. apply (N s F1).
  unfold at_target in F2. apply andb_true_iff in F2. destruct F2 as [F2 F3]. apply Qeq_bool_iff in F2. apply Qeq_bool_iff in F3.
  rewrite <- P1, <- P2. split; assumption.
Qed.

(** What is encoded. *)
Theorem attend_encodes r l o bs r' v st txt : shift r l o bs = (r', Ok (v, st)) -> proper_stim st -> sttext st = Some txt -> plain_text txt -> txt <> "None" ->
  holds v "value" (VStr txt) /\ exists loc, holds v "screen_pos" (VChunk loc) /\ locates loc st.
Proof.
  intros H P Et Pt Nn. unfold shift in H. destruct (resolve_slots bs true (removeunused o)) as [args|]; [|discriminate].
  destruct l as [l|]; [|discriminate]. destruct l as [|s0 l0] eqn:El; [discriminate|]. rewrite <- El in *. clear s0 l0 El.
  destruct (target args) as [p|[]]; try discriminate. destruct (List.find _ _) as [s|]; [|discriminate].
  destruct (dget args "cmd") as [cmd|]; [|discriminate]. destruct (visual_chunk r s (Some cmd)) as [[r1 c1]|] eqn:V; [|discriminate].
  injection H as <- <- <-. unfold visual_chunk in V. destruct (location_chunk r s true) as [[r2 loc]|] eqn:L; [|discriminate]. cbn [rbind] in V.
  rewrite Et in V. apply mk_chunk_spec in V. destruct V as (_ & V & _). split.
  - destruct (V "value" (RStr txt)) as (w & C & D); [apply dget_dset_eq|]. cbn in C. rewrite (split_plain _ Pt) in C. injection C as <-.
    eexists. split; [exact D|]. split; [reflexivity|]. intros X. inversion X. congruence.
  - destruct (V "screen_pos" (RChunk loc)) as (w & C & D); [rewrite dget_dset_neq by discriminate; apply dget_dset_eq|].
    cbn in C. injection C as <-. exists loc. split; [|eapply location_locates; eassumption].
    eexists. split; [exact D|]. split; [reflexivity|]. intros X. inversion X.
Qed.

(** When moving attention succeeds. *)
Definition known_visual (r : registry) (st : stimulus) : Prop :=
  known_stim r st /\ (forall n s, In (n, s) (stfeats st) -> plain_text s) /\ (forall x, sttext st = Some x -> plain_text x) /\
  exists ct, dget r (match stvistype st with Some t => t | None => "_visual" end) = Some ct /\
    In "cmd" (ctfields ct) /\ In "screen_pos" (ctfields ct) /\ In "value" (ctfields ct) /\ forall n, In n (dkeys (stfeats st)) -> In n (ctfields ct).

Lemma visual_total r st w : proper_stim st -> known_visual r st -> exists v, visual_chunk r st (Some (RVV w)) = Ok (r, v).
Proof.
  intros P (K & Pf & Px & ct & E & K1 & K2 & K3 & K4). unfold visual_chunk. destruct (location_total r st true P K) as (loc & ->). cbn [rbind].
  assert (X : forall n x, In (n, x) (dset (dset (dset (map (fun p : string * string => (fst p, RStr (snd p))) (stfeats st)) "cmd" (RVV w)) "screen_pos" (RChunk loc)) "value"
      (RStr (match sttext st with Some t => t | None => "" end))) -> (exists s, In (n, s) (stfeats st) /\ x = RStr s) \/
      (n = "cmd" /\ x = RVV w) \/ (n = "screen_pos" /\ x = RChunk loc) \/ (n = "value" /\ x = RStr (match sttext st with Some t => t | None => "" end))).
  { intros n x Hin.
    match type of Hin with In _ (dset (dset (dset ?d _ ?a) _ ?b) _ ?c) => change (In (n, x) (dupdate d [("cmd", a); ("screen_pos", b); ("value", c)])) in Hin end.
    apply dupdate_In in Hin. destruct Hin as [Hin|[H|[H|[H|[]]]]]; [|injection H as <- <-; auto|injection H as <- <-; auto|injection H as <- <-; auto].
    apply in_map_iff in Hin. destruct Hin as ([k s] & H & Hin). injection H as <- <-. left. exists s. auto. }
  apply (mk_chunk_total _ _ _ ct E).
  - intros n x Hin. destruct (X n x Hin) as [(s & Hs & ->)|[[_ ->]|[[_ ->]|[_ ->]]]]; cbn [convert]; try (eexists; reflexivity).
    + eexists. apply split_plain. exact (Pf n s Hs).
    + eexists. apply split_plain. destruct (sttext st); [auto|exact I].
  - intros n Hin. apply in_map_iff in Hin. destruct Hin as ([k x] & H & Hin). simpl in H. subst k.
    destruct (X n x Hin) as [(s & Hs & ->)|[[-> _]|[[-> _]|[-> _]]]]; auto. apply K4. apply in_map_iff. exists (n, s). auto.
Qed.

Lemma find_ex {A} (p : A -> bool) l x : In x l -> p x = true -> exists y, List.find p l = Some y.
Proof. intros H E. destruct (List.find p l) as [y|] eqn:F; [eauto|]. rewrite (find_none p l F x H) in E. discriminate. Qed.

Theorem attend_returns r l o bs c st : attends o bs c ->
  (forall n w, mentions o n w -> not_empty_bound bs w /\ ~ illegal bs true w) ->
  locates c st -> In st l -> whole st -> Forall proper_stim l -> Forall (known_visual r) l ->
  exists v rst, shift r (Some l) o bs = (r, Ok (v, rst)).
Proof.
  intros A Hm L Hin Wh Fp Fk. unfold shift. pose proof A as (No & nd & nm & _).
  destruct (resolve_slots_total bs true (removeunused o)) as (args & R).
  { intros n s0 Hi. apply used_mentions in Hi. destruct Hi as (v & -> & M). destruct (Hm n v M) as (H2 & H3).
    pose proof (resolve_exact bs (Some v) true nd (nm n v M) H2 (or_introl eq_refl)) as X.
    destruct (check_bound_vars bs (Some v) true) as [u|e]; [eauto|]. destruct X as [_ X]. contradiction. }
  rewrite R. destruct (target_spec _ _ _ _ _ A L R) as ((p & -> & P1 & P2) & (x & Ex)).
  destruct l as [|s0 l0] eqn:El; [contradiction|]. rewrite <- El in *. clear s0 l0 El.
  destruct (find_ex (at_target p) (rev l) st) as (s & F).
  { rewrite <- in_rev. exact Hin. }
  { unfold at_target. apply andb_true_iff. destruct Wh as [W1 W2]. split; apply Qeq_bool_iff; [rewrite P1; exact W1|rewrite P2; exact W2]. }
  rewrite F, Ex. apply find_some in F. destruct F as [F _]. apply in_rev in F. rewrite Forall_forall in Fp, Fk.
  destruct (proj2 (resolve_slots_In _ _ _ _ R) _ _ (dget_In _ _ Ex)) as (s1 & u & _ & _ & ->).
  destruct (visual_total r s u (Fp s F) (Fk s F)) as (v & ->). eauto.
Qed.
