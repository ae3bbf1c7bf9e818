(** Round trip for texts without signs; what the reader never delivers. *)
From Verif Require Import Base BaseFacts Chunks DecMem Buffers Productions TypeFacts ChunkFacts ChunkMatch Strings StringSpec StringRead StringMeaning StringChunk.
Local Open Scope string_scope.

(** A plain str of the reader starts with no sign (see the comment of [Strings.add_part]). *)
Lemma reader_parts s l n t : chunk_reader s = Some l -> In (n, PStr t) l -> ~ begins (one_of_chars "=~<>!") t.
Proof.
  intros H Hin. apply chunk_reader_sound in H. destruct H as (ps & Ht & ->).
  apply in_map_iff in Hin. destruct Hin as ([m v] & E & Hin). cbn [fst snd] in E. injection E as -> Ev.
  destruct (chunk_text_written ps _ Ht) as [Hw _]. destruct (Hw _ _ Hin) as [x Hx].
  destruct Hx as [s0 Hne Ha|mk g s0 Hg Hne Ha|q s0 Hq Ha]; cbn [part_of] in Ev; try discriminate; injection Ev as <-.
  - destruct s0 as [|c s0]; [congruence|]. cbn [begins]. intros Hc. inversion Ha as [|a b Hp _ E1]. subst.
    clear -Hc Hp. cbn [one_of_chars list_ascii_of_string In] in Hc.
    repeat (destruct Hc as [<-|Hc]; [vm_compute in Hp; repeat (destruct Hp as [Hp|Hp]; [discriminate|]); destruct Hp|]); destruct Hc.
  - cbn [begins]. intros Hc. clear -Hc Hq. vm_compute in Hq. destruct Hq as [<-|[<-|[]]];
    vm_compute in Hc; repeat (destruct Hc as [Hc|Hc]; [discriminate|]); destruct Hc.
Qed.

(** The written value [v] stands for the string [t]: a plain word that is no name of a chunk, or a
    quoted text. *)
Definition spells (names : dict chunk) (v : written) (t : string) : Prop :=
  (v = WPlain t /\ dget names t = None) \/ exists q, v = WQuoted q t.

Definition spelled (names : dict chunk) (ps : list (string * written)) (l : list (string * string)) : Prop :=
  Forall2 (fun p q => fst p = fst q /\ spells names (snd p) (snd q)) ps l.

Lemma spelled_names names ps l : spelled names ps l -> map fst ps = map fst l.
Proof. induction 1 as [|p q ps l [H _] _ IH]; [reflexivity|]. cbn [map]. rewrite H, IH. reflexivity. Qed.

Lemma spelled_In names ps l n v : spelled names ps l -> In (n, v) ps -> exists t, In (n, t) l /\ spells names v t.
Proof.
  induction 1 as [|[m v0] [m' t0] ps l [H1 H2] _ IH]; intros Hin; [destruct Hin|]. cbn [fst snd] in H1, H2. subst m'.
  destruct Hin as [E|Hin]; [injection E as -> ->; exists t0; split; [left; reflexivity|exact H2]|].
  destruct (IH Hin) as (t & A & B). exists t. split; [right; exact A|exact B].
Qed.

Lemma spells_value names v t x : spells names v t -> (says_value names v x <-> x = VStr t).
Proof.
  intros [[-> H]|[q ->]]; split; intros E.
  - inversion E; subst; congruence.
  - subst. apply says_plain. exact H.
  - inversion E. reflexivity.
  - subst. apply says_quoted.
Qed.
Lemma spells_no_var names v t x : spells names v t -> ~ says_var v x.
Proof. intros [[-> _]|[q ->]] H; inversion H. Qed.
Lemma spells_no_negval names v t x : spells names v t -> ~ says_negval v x.
Proof. intros [[-> _]|[q ->]] H; inversion H. Qed.
Lemma spells_no_negvar names v t x : spells names v t -> ~ says_negvar v x.
Proof. intros [[-> _]|[q ->]] H; inversion H. Qed.

Lemma nothing_in {A} (l : list A) : (forall x, ~ In x l) -> l = [].
Proof. destruct l as [|a l]; [reflexivity|]. intros H. destruct (H a). left. reflexivity. Qed.

Section Spelled.
Variables (names : dict chunk) (ps : list (string * written)) (l : list (string * string)).
Hypothesis Hsp : spelled names ps l.
Hypothesis Hnd : NoDup (map fst l).

Lemma spelled_value n x : slot_says (says_value names) ps n x -> exists t, dget l n = Some t /\ x = VStr t.
Proof.
  intros (v & Hin & Hv). destruct (spelled_In _ _ _ _ _ Hsp Hin) as (t & A & B). exists t.
  split; [apply dget_NoDup; assumption|]. apply (spells_value _ _ _ x B). exact Hv.
Qed.

Lemma spelled_named n : named ps n <-> exists t, dget l n = Some t.
Proof.
  unfold named. rewrite (spelled_names _ _ _ Hsp). split.
  - intros H. destruct (dget l n) as [t|] eqn:E; [exists t; reflexivity|]. apply dget_None in E. contradiction.
  - intros [t E]. apply (dget_Some_key _ _ E).
Qed.

Lemma spelled_read n t w : dget l n = Some t -> slot_read names ps n w -> w = MkVV (VStr t) None [] [].
Proof.
  intros E [R1 R2 R3 R4]. destruct w as [v x nv nx]. cbn [vvals vvar vnegvals vnegvars] in *.
  assert (Hv : v = VStr t).
  { destruct R1 as [[Hno _]|Hs].
    - exfalso. assert (Hn : named ps n) by (apply spelled_named; exists t; exact E).
      unfold named in Hn. apply in_map_iff in Hn. destruct Hn as ([m v0] & E0 & Hin). cbn [fst] in E0. subst m.
      destruct (spelled_In _ _ _ _ _ Hsp Hin) as (t' & A & B). apply (Hno (VStr t')). exists v0. split; [exact Hin|].
      apply (spells_value _ _ _ _ B). reflexivity.
    - destruct (spelled_value n v Hs) as (t' & A & B). congruence. }
  assert (Hx : x = None).
  { destruct R2 as [[_ H]|(y & _ & u & Hin & Hu)]; [exact H|]. exfalso.
    destruct (spelled_In _ _ _ _ _ Hsp Hin) as (t' & A & B). exact (spells_no_var _ _ _ _ B Hu). }
  assert (Hnv : nv = []).
  { apply nothing_in. intros y Hy. apply R3 in Hy. destruct Hy as (u & Hin & Hu).
    destruct (spelled_In _ _ _ _ _ Hsp Hin) as (t' & A & B). exact (spells_no_negval _ _ _ _ B Hu). }
  assert (Hnx : nx = []).
  { apply nothing_in. intros y Hy. apply R4 in Hy. destruct Hy as (u & Hin & Hu).
    destruct (spelled_In _ _ _ _ _ Hsp Hin) as (t' & A & B). exact (spells_no_negvar _ _ _ _ B Hu). }
  congruence.
Qed.

Lemma spelled_no_conflict : ~ conflict names ps.
Proof.
  intros (n & [(v & w & Hv & Hw & E)|(x & y & (u & Hin & Hu) & _)]).
  - destruct (spelled_value n v Hv) as (t & A & ->). destruct (spelled_value n w Hw) as (t' & A' & ->).
    rewrite A in A'. injection A' as <-. rewrite key_eqb_refl in E. discriminate.
  - destruct (spelled_In _ _ _ _ _ Hsp Hin) as (t' & A & B). exact (spells_no_var _ _ _ _ B Hu).
Qed.
End Spelled.

Definition spelled_type (l : list (string * string)) (ty : string) : Prop :=
  dget l "isa" = Some ty /\ dget l "ISA" = None.

Lemma spelled_type_slots names ps l ty : spelled names ps l -> spelled_type l ty -> type_slots ps = ["isa"].
Proof.
  intros Hsp [H1 H2]. unfold type_slots. rewrite (spelled_names _ _ _ Hsp).
  assert (A : smem "isa" (map fst l) = true) by (apply smem_In; apply (dget_Some_key _ _ H1)).
  assert (B : smem "ISA" (map fst l) = false).
  { destruct (smem "ISA" (map fst l)) eqn:E; [|reflexivity]. apply smem_In in E. apply dget_None in H2. contradiction. }
  rewrite A, B. reflexivity.
Qed.

(** Every slot and value written comes back, and nothing else. *)
Theorem round_trip st name s ps l ty :
  chunk_text ps s -> no_quoted_tab ps -> spelled (nsnames st) ps l -> NoDup (map fst l) -> spelled_type l ty ->
  proper_types (nsreg st) -> ty <> "" -> dget (nsreg st) ty <> None \/ identifier ty ->
  (dget special_types ty <> None -> exists ct, dget (nsreg st) ty = Some ct /\ forall n, dget l n <> None -> n <> "isa" -> In n (ctfields ct)) ->
  (forall n, dget l n <> None -> n <> "isa" -> begins (one_of_chars letters) n /\ ~ In n ["nameofchunk"; "typename"; "self"]) ->
  exists st' c, chunkstring st name s = Ok (st', c) /\ ctype c = ty /\
    (forall n t, dget l n = Some t -> n <> "isa" -> dget (cslots c) n = Some (Some (MkVV (VStr t) None [] []))) /\
    (forall n, dget l n = None \/ n = "isa" -> dget (cslots c) n =
       match dget (nsreg st) ty with
       | Some ct => if smem n (ctfields ct) then Some None else None
       | None => None
       end) /\
    nsnames st' = dset (nsnames st) (stored_name name) c.
Proof.
  intros Ht Hq Hsp Hnd Hty Hp Hne Hid Hspec Hsl.
  destruct (chunk_text_written ps s Ht) as [Hw Hsn].
  pose proof (spelled_type_slots _ _ _ _ Hsp Hty) as Ets. destruct Hty as [Hty HISA].
  pose proof (spelled_no_conflict _ _ _ Hsp Hnd) as Hc.
  assert (Hss : forall n, slot_said ps n <-> dget l n <> None /\ n <> "isa").
  { intros n. unfold slot_said. rewrite Ets. rewrite (spelled_named _ _ _ Hsp n). cbn [In].
    destruct (dget l n) as [t|]; split.
    - intros [_ H]. split; [discriminate|]. intros ->. apply H. left. reflexivity.
    - intros [_ H]. split; [exists t; reflexivity|]. intros [E|[]]. congruence.
    - intros [[t E] _]. discriminate.
    - intros [E _]. congruence. }
  rewrite (chunkstring_reads st name s ps Ht Hq).
  destruct (chunk_of_pairs_makes st name ps Hw Hsn Hp Hc) as (st' & c & E).
  - intros _ v Hv. rewrite Ets in Hv. cbn [last] in Hv. destruct (spelled_value _ _ _ Hsp Hnd _ _ Hv) as (t & A & ->).
    rewrite Hty in A. injection A as <-. exists ty. split; [reflexivity|]. right. split; [exact Hid|].
    intros H. destruct (Hspec H) as (ct & A & B). exists ct. split; [exact A|]. intros n Hn. apply Hss in Hn. apply B; tauto.
  - intros n Hn. apply Hss in Hn. apply Hsl; tauto.
  - exists st', c. rewrite E. split; [reflexivity|].
    destruct (chunk_of_pairs_sound st name ps st' c Hw E) as (_ & [S1 S2 S3] & En & _).
    assert (Ec : ctype c = ty).
    { assert (Hni : named ps "isa") by (apply (spelled_named _ _ _ Hsp); exists ty; exact Hty).
      inversion S1 as [A|w t A B C D F|w A B C F].
      - contradiction.
      - rewrite Ets in B. cbn [last] in B. rewrite (spelled_read _ _ _ Hsp Hnd _ _ _ Hty B) in C. cbn [vvals] in C. congruence.
      - rewrite Ets in B. cbn [last] in B. rewrite (spelled_read _ _ _ Hsp Hnd _ _ _ Hty B) in C. cbn [vvals truthy] in C.
        destruct ty; [congruence|discriminate]. }
    split; [exact Ec|]. split; [|split; [|exact En]].
    + intros n t Hl Hi. destruct (S2 n) as (w & A & B); [apply Hss; split; congruence|].
      rewrite (spelled_read _ _ _ Hsp Hnd _ _ _ Hl B) in A. exact A.
    + intros n Hn. rewrite S3; [rewrite Ec; reflexivity|]. rewrite Hss. intros [A B]. destruct Hn; contradiction.
Qed.
