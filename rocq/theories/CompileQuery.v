(** What becomes of the queries of two rules that are compiled. *)
From Verif Require Import Base BaseFacts Chunks DecMem Buffers BufferFacts ModifyFacts Productions ProdSpec Compile CompileFacts CompileSame CompileSpec.
Local Open Scope string_scope.
Local Open Scope list_scope.

Notation q_ b := (String "?" b).
Lemma acts_on_inv b r1 : acts_on b r1 = Ok true -> exists code, In (String code b) (dkeys r1) /\ code <> "="%char /\ code <> "?"%char.
Proof.
  induction r1 as [|[key c] r1 IH]; cbn [acts_on]; [discriminate|]. destruct key as [|code b']; [discriminate|].
  destruct (rhs_meth code) as [m|] eqn:M; [|discriminate]. intros H.
  assert (R : acts_on b r1 = Ok true -> exists code0, In (String code0 b) (dkeys ((String code b', c) :: r1)) /\ code0 <> "="%char /\ code0 <> "?"%char).
  { intros H'. destruct (IH H') as (co & I & N). exists co. split; [right; exact I|exact N]. }
  assert (N : m <> MModify -> m <> MExtra -> code <> "="%char /\ code <> "?"%char) by (intros N1 N2; split; intros ->; injection M as <-; congruence).
  destruct m; try exact (R H); (destruct (String.eqb_spec b' b) as [->|_]; [|exact (R H)]; exists code; split; [left; reflexivity|apply N; discriminate]).
Qed.
Lemma rest_other vals retr r1 l2 : forall l1 l k, collapse_rest vals retr r1 l2 l1 = Ok l -> ~ In k (dkeys l2) -> dget l k = dget l1 k.
Proof.
  induction l2 as [|[key c] l2 IH]; intros l1 l k; cbn [collapse_rest]; [intros [= <-]; reflexivity|]. destruct key as [|code b]; [discriminate|]. intros H N.
  assert (Nk : String code b <> k) by (intros E; apply N; left; exact E).
  assert (N2 : ~ In k (dkeys l2)) by (intros E; apply N; right; exact E).
  assert (G : forall x, collapse_rest vals retr r1 l2 (dset l1 (String code b) x) = Ok l -> dget l k = dget l1 k).
  { intros x H'. rewrite (IH _ _ _ H' N2). rewrite dget_dset_neq; [reflexivity|exact Nk]. }
  destruct (Ascii.eqb code "?").
  - apply rbind_Ok in H. destruct H as (r & _ & H). apply rbind_Ok in H. destruct H as ([|] & _ & H); [exact (IH _ _ _ H N2)|].
    destruct c; try discriminate. destruct (dget l1 (String code b)) as [[]|]; try discriminate; exact (G _ H).
  - destruct (Ascii.eqb code "="); [|discriminate]. apply rbind_Ok in H. destruct H as (ch2 & _ & H).
    destruct (dmem vals b || negb (is_buffer retr b)); [exact (G _ H)|exact (IH _ _ _ H N2)].
Qed.
(** A query of the second rule. *)
Lemma rest_queries vals retr r1 l2 : forall l1 l b d, collapse_rest vals retr (Ok r1) l2 l1 = Ok l -> NoDup (dkeys l2) -> In (q_ b, CDict d) l2 -> NoDup (dkeys d) ->
  acts_on b r1 = Ok true \/ exists d', dget l (q_ b) = Some (CDict d') /\ forall k v, dget d k = Some v -> dget d' k = Some v.
Proof.
  induction l2 as [|[key c] l2 IH]; intros l1 l b d; cbn [collapse_rest]; [intros _ _ []|]. destruct key as [|code b']; [discriminate|]. intros H N Hin Nd.
  inversion N as [|? ? N1 N2]; subst. destruct Hin as [E|Hin].
  - injection E as -> -> ->. replace (Ascii.eqb "?" "?") with true in H by reflexivity. cbn [rbind] in H. apply rbind_Ok in H. destruct H as ([|] & A & H); [left; exact A|]. right.
    destruct (dget l1 (String "?" b)) as [[| d1 | |]|] eqn:E1; try discriminate; rewrite (rest_other _ _ _ _ _ _ _ H N1), dget_dset_eq; eexists; (split; [reflexivity|]); intros k v Ek.
    + rewrite dget_dupdate by exact Nd. rewrite Ek. reflexivity.
    + exact Ek.
  - destruct (Ascii.eqb code "?").
    + cbn [rbind] in H. apply rbind_Ok in H. destruct H as ([|] & A & H); [exact (IH _ _ _ _ H N2 Hin Nd)|].
      destruct c; try discriminate. destruct (dget l1 (String code b')) as [[]|]; try discriminate; exact (IH _ _ _ _ H N2 Hin Nd).
    + destruct (Ascii.eqb code "="); [|discriminate]. apply rbind_Ok in H. destruct H as (ch2 & _ & H).
      destruct (dmem vals b' || negb (is_buffer retr b')); exact (IH _ _ _ _ H N2 Hin Nd).
Qed.
(** A query of the first rule. *)
Lemma rest_kept vals retr r1 l2 : forall l1 l b d1, collapse_rest vals retr r1 l2 l1 = Ok l -> (forall d, In (q_ b, CDict d) l2 -> NoDup (dkeys d)) -> dget l1 (q_ b) = Some (CDict d1) ->
  exists d', dget l (q_ b) = Some (CDict d') /\ forall k v, dget d1 k = Some v -> dget d' k = Some v \/ exists d2, In (q_ b, CDict d2) l2 /\ dget d2 k <> None.
Proof.
  induction l2 as [|[key c] l2 IH]; intros l1 l b d1; cbn [collapse_rest]; [intros [= <-] _ E; exists d1; auto|]. destruct key as [|code b']; [discriminate|]. intros H Nd E.
  assert (G : forall l1' d1', dget l1' (q_ b) = Some (CDict d1') -> (forall k v, dget d1 k = Some v -> dget d1' k = Some v \/ exists d2, In (q_ b, CDict d2) ((String code b', c) :: l2) /\ dget d2 k <> None) ->
     collapse_rest vals retr r1 l2 l1' = Ok l ->
     exists d', dget l (q_ b) = Some (CDict d') /\ forall k v, dget d1 k = Some v -> dget d' k = Some v \/ exists d2, In (q_ b, CDict d2) ((String code b', c) :: l2) /\ dget d2 k <> None).
  { intros l1' d1' E' K H'. destruct (IH _ _ _ _ H' (fun d Hd => Nd d (or_intror Hd)) E') as (d' & D & Kd). exists d'. split; [exact D|]. intros k v Ek.
    destruct (K k v Ek) as [K1|K1]; [|auto]. destruct (Kd k v K1) as [K2|(d2 & I2 & K2)]; [auto|]. right. exists d2. split; [right; exact I2|exact K2]. }
  destruct (Ascii.eqb code "?") eqn:Q.
  - apply Ascii.eqb_eq in Q. subst code. apply rbind_Ok in H. destruct H as (r & _ & H). apply rbind_Ok in H. destruct H as ([|] & _ & H); [exact (G l1 d1 E (fun k v X => or_introl X) H)|].
    destruct c as [| d2 | |]; try discriminate. destruct (String.eqb_spec b' b) as [->|Nb].
    + rewrite E in H. apply (G _ (dupdate d1 d2)) in H; [exact H|rewrite dget_dset_eq; reflexivity|]. intros k v Ek.
      rewrite dget_dupdate by (apply Nd; left; reflexivity). destruct (dget d2 k) as [a|] eqn:E2; [|auto]. right. exists d2. split; [left; reflexivity|congruence].
    + assert (Nk : String "?" b' <> q_ b) by congruence.
      destruct (dget l1 (String "?" b')) as [[| d0 | |]|]; try discriminate; (apply (G _ d1) in H; [exact H|rewrite dget_dset_neq; [exact E|exact Nk]|auto]).
  - destruct (Ascii.eqb code "=") eqn:Q2; [|discriminate]. apply Ascii.eqb_eq in Q2. subst code. apply rbind_Ok in H. destruct H as (ch2 & _ & H).
    destruct (dmem vals b' || negb (is_buffer retr b')); [|exact (G l1 d1 E (fun k v X => or_introl X) H)].
    apply (G _ d1) in H; [exact H|rewrite dget_dset_neq; [exact E|congruence]|auto].
Qed.
Lemma tests_queries vals retr l1 : forall l2 o1 o2, collapse_tests vals retr l1 l2 = Ok (o1, o2) ->
  (forall b, dget o1 (q_ b) = dget l1 (q_ b)) /\ (forall b c, In (q_ b, c) l2 -> In (q_ b, c) o2) /\ (forall p, In p o2 -> In p l2) /\ (NoDup (dkeys l2) -> NoDup (dkeys o2)).
Proof.
  induction l1 as [|[key c] l1 IH]; intros l2 o1 o2; cbn [collapse_tests]; [intros [= <- <-]; auto|]. destruct key as [|code b]; [discriminate|].
  assert (G : forall l2' n, (code = "?"%char -> n = c) -> (forall b c, In (q_ b, c) l2 -> In (q_ b, c) l2') -> (forall p, In p l2' -> In p l2) -> (NoDup (dkeys l2) -> NoDup (dkeys l2')) ->
    (x <- collapse_tests vals retr l1 l2' ;; let '(a, z) := x in Ok ((String code b, n) :: a, z)) = Ok (o1, o2) ->
    (forall b', dget o1 (q_ b') = dget ((String code b, c) :: l1) (q_ b')) /\ (forall b c, In (q_ b, c) l2 -> In (q_ b, c) o2) /\ (forall p, In p o2 -> In p l2) /\ (NoDup (dkeys l2) -> NoDup (dkeys o2))).
  { intros l2' n Hn A A' B H. apply rbind_Ok in H. destruct H as ([a z] & H & E). injection E as <- <-. destruct (IH _ _ _ H) as (I1 & I2 & I3 & I4). split; [|auto 6].
    intros b'. cbn [dget]. destruct (String.eqb_spec (String code b) (q_ b')) as [E|_]; [|apply I1]. injection E as -> ->. rewrite (Hn eq_refl). reflexivity. }
  destruct (Ascii.eqb code "?") eqn:Q; [apply (G l2); auto|]. destruct (Ascii.eqb code "=") eqn:Q2; [|discriminate]. apply Ascii.eqb_eq in Q2. subst code.
  destruct (dget l2 (String "=" b)) as [c2|]; [|apply (G l2); auto]. intros H. apply rbind_Ok in H. destruct H as (ch2 & _ & H). apply rbind_Ok in H. destruct H as (ch1 & _ & H).
  apply rbind_Ok in H. destruct H as (n & _ & H). revert H. apply (G (ddel l2 (String "=" b))).
  - discriminate.
  - intros b' c' J. apply filter_In. split; [exact J|reflexivity].
  - intros p J. apply filter_In in J. apply J.
  - intros N. unfold ddel, dkeys in *. clear -N. induction l2 as [|[k a] l2 IH]; [constructor|]. inversion N as [|? ? N1 N2]; subst. cbn [filter fst]. destruct (negb _); [|auto].
    cbn. constructor; [|auto]. intros I. apply N1. apply in_map_iff in I. destruct I as (p & <- & I). apply filter_In in I. apply in_map. apply I.
Qed.
Lemma parts_queries f side side' b c : with_parts f side = Ok side' -> (In (q_ b, c) side <-> In (q_ b, c) side').
Proof.
  intros H. apply with_parts_spec in H. induction H as [|p q l l' E F IH]; [tauto|].
  assert (X : p = (q_ b, c) <-> q = (q_ b, c)).
  { destruct E as (K & code & bu & Ek & E). destruct p as [kp cp], q as [kq cq]. cbn [fst snd] in *. subst kq. destruct E as [(A & c0 & c0' & E1 & E2 & _)|(_ & E)]; [|subst cq; tauto].
    subst kp. split; intros E; injection E as E; subst; destruct A as [A|[A|[A|A]]]; discriminate A. }
  cbn [In]. rewrite X, IH. tauto.
Qed.

Theorem compile_queries tie s n1 n2 vals n rs ru1 ru2 new : compile_rules tie s n1 n2 vals = Ok (Some (n, false, rs)) ->
  dget (srules s) n1 = Some ru1 -> dget (srules s) n2 = Some ru2 -> dget rs n = Some new ->
  NoDup (dkeys (rlhs ru1)) -> NoDup (dkeys (rlhs ru2)) -> (forall b d, asks (rlhs ru2) b d -> NoDup (dkeys d)) ->
  (forall b d, asks (rlhs ru2) b d ->
     (exists d', asks (rlhs new) b d' /\ forall k v, dget d k = Some v -> dget d' k = Some v) \/
     exists code, In (String code b) (dkeys (rrhs ru1)) /\ code <> "="%char /\ code <> "?"%char) /\
  (forall b d, asks (rlhs ru1) b d ->
     exists d', asks (rlhs new) b d' /\ forall k v, dget d k = Some v -> dget d' k = Some v \/ exists d2, asks (rlhs ru2) b d2 /\ dget d2 k <> None).
Proof.
  intros H E1 E2 E U1 U2 U3. apply (fun X => new_combine _ _ _ _ _ _ _ _ _ _ X E1 E2 E) in H. apply combine_inv in H.
  destruct H as (_ & retr & vs & lhs2 & vals1 & mv & vals2 & l1 & r1 & l2 & r2 & r2' & Hs & H2 & _ & _ & _ & H3 & Hr1 & H4 & _ & HL & _).
  unfold collapse_lhs in HL. cbn [rbind] in HL. apply rbind_Ok in HL. destruct HL as ([o1 o2] & Ht & HL).
  assert (K1 : dkeys l1 = dkeys (rlhs ru1)) by exact (with_parts_keys _ _ _ H3).
  assert (K2 : dkeys l2 = dkeys (rlhs ru2)) by (rewrite (with_parts_keys _ _ _ H4); exact (with_parts_keys _ _ _ H2)).
  destruct (tests_queries _ _ _ _ _ _ Ht) as (T1 & T2 & T3 & T4).
  assert (Q2 : forall b c, In (q_ b, c) (rlhs ru2) <-> In (q_ b, c) l2) by (intros b c; rewrite (parts_queries _ _ _ _ _ H2); exact (parts_queries _ _ _ _ _ H4)).
  assert (N2 : NoDup (dkeys o2)) by (apply T4; rewrite K2; exact U2).
  unfold asks in *. split.
  - intros b d Hin. pose proof (proj1 (Q2 b (CDict d)) Hin) as Hl2.
    destruct (rest_queries _ _ _ _ _ _ _ _ HL N2 (T2 _ _ Hl2) (U3 _ _ Hin)) as [A|(d' & D & Kd)].
    + right. destruct (acts_on_inv _ _ A) as (code & I & N). exists code. split; [|exact N]. rewrite <- (with_parts_keys _ _ _ Hr1). exact I.
    + left. exists d'. split; [exact (dget_In _ _ D)|exact Kd].
  - intros b d Hin. assert (D1 : dget o1 (q_ b) = Some (CDict d)).
    { rewrite T1. apply dget_NoDup; [rewrite K1; exact U1|]. apply (parts_queries _ _ _ _ _ H3). exact Hin. }
    destruct (rest_kept _ _ _ _ _ _ b d HL (fun d2 I2 => U3 b d2 (proj2 (Q2 b (CDict d2)) (T3 _ I2))) D1) as (d' & D & Kd).
    exists d'. split; [exact (dget_In _ _ D)|]. intros k v Ek. destruct (Kd k v Ek) as [X|(d2 & I2 & X)]; [auto|]. right. exists d2. split; [|exact X]. apply Q2. exact (T3 _ I2).
Qed.
