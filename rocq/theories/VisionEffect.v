(** What a visual search by a rule does to the visual-location buffer (C41, C42). *)
From Verif Require Import BaseFacts Chunks TypeFacts ResolveFacts Buffers BufferFacts ModifyFacts Productions ProdSpec ActFacts CycleFacts EffectFacts Vision VisionSpec VisionFacts.
Local Open Scope string_scope.

(** The step [h] looks for [o] and gets [got]. *)
Definition looks (O : oracle) (h : hop) (name : string) (i : nat) (c : content) (bs : bindings) (got : option (chunk * stimulus)) : Prop :=
  snd (ofind O (hbefore h) i c bs (extra_of (hbefore h) name)) = Ok got.

Theorem find_effect R O name i c bs t s tr :
  of_kind (sw s) i KLocation -> runs R (start O MRetrieve name i c bs t) s tr FDone ->
  exists got h1 h2 rest, tr = h1 :: h2 :: rest /\ hevent h1 = Some (MkEv (roundtime t) name WUnknown) /\ looks O h2 name i c bs got /\
    ((exists d stim h3 h4, got = Some (d, stim) /\ cslots d <> [] /\ rest = [h3; h4] /\ hevent h4 = None /\
        announces h2 t name "CLEARED" /\
        does h3 t name "ENCODED LOCATION" (OAdd i (AChunk d) t None (Some stim)) /\
        smods (hafter h3) = smods (set_state i "free" (hbefore h3))) \/
     ((forall d stim, got = Some (d, stim) -> cslots d = []) /\ exists h3, rest = [h3] /\ hevent h3 = None /\
        announces h2 t name "ENCODED LOCATION" /\ sw (hafter h2) = fst (ofind O (hbefore h2) i c bs (extra_of (hbefore h2) name)) /\
        smods (hafter h2) = smods (set_state i "error" (hbefore h2)))).
Proof.
  intros (b & Eb & Kb) Hr. cbn [start] in Hr. unfold g_request in Hr.
  assert (E1 : resume (GAct (set_state i "busy") (GGet (fun s0 => match nth_error (bufs (sw s0)) i with
     | None => GRaise EAttr
     | Some b0 => match bkind b0 with KGoal => g_setgoal name i c bs t | KLocation => g_find O name i c bs t
         | KVisual => g_visual O name i c bs t | KMotor => g_motor name i c bs t | KRetrieval => g_retrieve O name i c bs t end end))) s
     = resume (g_find O name i c bs t) (set_state i "busy" s)).
  { cbn [resume]. rewrite set_state_w, Eb, Kb. reflexivity. }
  match type of E1 with ?l = _ => remember l as L eqn:EL end. unfold g_find in E1. cbn [resume] in E1. rewrite EL in E1. clear EL L.
  destruct (runs_step _ _ _ _ _ _ _ _ E1 Hr) as [[_ X]|(s2 & tr' & -> & _ & Hr2)]; [discriminate|]. clear E1.
  unfold gcall in Hr2 at 1. apply runs_get in Hr2. cbn beta in Hr2.
  destruct (ofind O s2 i c bs (extra_of s2 name)) as [w2 [got|e]] eqn:Eo.
  2:{ cbn [resume] in Hr2. step_of Hr2 E2. destruct (runs_step _ _ _ _ _ _ _ _ E2 Hr2) as [[_ X]|[_ X]]; discriminate. }
  assert (F : (exists d stim, got = Some (d, stim) /\ cslots d <> []) \/ (forall d stim, got = Some (d, stim) -> cslots d = [])).
  { destruct got as [[d stim]|]; [|right; intros d stim X; discriminate]. destruct (cslots d) eqn:Es.
    - right. intros d' stim' X. congruence.
    - left. exists d, stim. split; [reflexivity|congruence]. }
  destruct F as [(d & stim & -> & Fs)|F].
  - rewrite (proj2 (truthy_chunk d) Fs) in Hr2. cbn [gseq] in Hr2.
    unfold g_clear, gcall in Hr2. cbn [gseq] in Hr2.
    match type of Hr2 with runs _ ?g _ _ _ => remember (resume g s2) as L eqn:EL end. symmetry in EL.
    pose proof EL as E2. cbn [resume] in E2.
    destruct (clear_into (set_state i "busy" (set_w w2 s2)) i name false t) as [w3 [[]|e]] eqn:Ec; cbn [resume gseq] in E2; rewrite <- E2 in EL; clear E2 L.
    2:{ destruct (runs_step _ _ _ _ _ _ _ _ EL Hr2) as [[_ X]|[_ X]]; discriminate. }
    destruct (runs_step _ _ _ _ _ _ _ _ EL Hr2) as [[_ X]|(s3 & tr3 & -> & _ & Hr3)]; [discriminate|]. clear EL.
    apply runs_get in Hr3. cbn beta in Hr3.
    destruct (on_buf s3 i (fun b => add_buf (sw s3) i b (AChunk d) t None (Some stim))) as [w4 [[]|e]] eqn:E4; cbn [gseq] in Hr3.
    2:{ step_of Hr3 E5. destruct (runs_step _ _ _ _ _ _ _ _ E5 Hr3) as [[_ X]|[_ X]]; discriminate. }
    step_of Hr3 E5. destruct (runs_step _ _ _ _ _ _ _ _ E5 Hr3) as [[_ X]|(s4 & tr4 & -> & _ & Hr4)]; [discriminate|].
    inversion Hr4; subst; try discriminate.
    eexists (Some (d, stim)), _, _, _. split; [reflexivity|]. split; [reflexivity|]. split; [unfold looks; cbn; rewrite Eo; reflexivity|]. left.
    eexists d, stim, _, _. split; [reflexivity|]. split; [exact Fs|]. split; [reflexivity|]. split; [reflexivity|]. split; [reflexivity|].
    split; [|cbn; unfold set_state, set_attrs; cbn; destruct (nth_error (smods s3) i); reflexivity].
    split; [reflexivity|]. cbn [hbefore hafter]. unfold on_buf in E4. simpl. rewrite set_state_w. cbn.
    destruct (nth_error (bufs (sw s3)) i); [|discriminate]. rewrite E4. reflexivity.
  - assert (Hr3 : runs R (GAct (set_w w2) (GAct (set_state i "error") (GYield (ev t name (WText "ENCODED LOCATION")) GRet))) s2 tr' FDone).
    { destruct got as [[d stim]|]; [|exact Hr2]. destruct (truthy (VChunk d)) eqn:T; [|exact Hr2].
      apply truthy_chunk in T. elim T. exact (F d stim eq_refl). }
    clear Hr2. step_of Hr3 E5. destruct (runs_step _ _ _ _ _ _ _ _ E5 Hr3) as [[_ X]|(s4 & tr4 & -> & _ & Hr4)]; [discriminate|].
    inversion Hr4; subst; try discriminate.
    eexists got, _, _, _. split; [reflexivity|]. split; [reflexivity|]. split; [unfold looks; cbn; rewrite Eo; reflexivity|]. right.
    split; [exact F|]. eexists. split; [reflexivity|]. split; [reflexivity|]. split; [reflexivity|]. cbn. rewrite set_state_w, Eo.
    split; [reflexivity|]. unfold set_state, set_attrs; cbn; destruct (nth_error (smods s2) i); reflexivity.
Qed.

(** The search of the simulation is that of the vision module, with the focus [focus], on the screen shown. *)
Definition sees (O : oracle) (focus : st -> Q * Q) : Prop :=
  forall s i b o bs extra, nth_error (bufs (sw s)) i = Some b -> bkind b = KLocation ->
    snd (ofind O s i (CChunk o) bs extra) =
    match snd (visual_find (wreg (sw s)) (focus s) (bfinst b) (bstims b) (xstim (sscreen s)) o bs extra) with
    | Ok (Some c, Some st) => Ok (Some (c, st))
    | Ok _ => Ok None
    | Err e => Err e
    end.

Lemma look_stim f finst recent search extra r acc st r' acc' :
  look f finst recent search extra r acc st = (r', Ok acc') -> (fchunk acc <> None -> fstim acc <> None) -> fchunk acc' <> None -> fstim acc' <> None.
Proof.
  intros H A. unfold look in H. cbv zeta in H.
  repeat match type of H with
  | (if ?x then _ else _) = _ => destruct x
  | match ?x with Ok _ => _ | Err _ => _ end = _ => destruct x as [[]|]
  end; try discriminate; injection H as <- <-; auto; simpl; intros _; discriminate.
Qed.
Lemma look_all_stim f finst recent search extra l : forall r acc r' acc',
  look_all f finst recent search extra r acc l = (r', Ok acc') -> (fchunk acc <> None -> fstim acc <> None) -> fchunk acc' <> None -> fstim acc' <> None.
Proof.
  induction l as [|st l IH]; intros r acc r' acc' H A; simpl in H.
  - injection H as <- <-. exact A.
  - destruct (look f finst recent search extra r acc st) as [r1 [acc1|e]] eqn:E; [|discriminate].
    apply (IH _ _ _ _ H). eapply look_stim; eassumption.
Qed.
Lemma find_stim r f finst recent stims o bs extra r' c rst :
  visual_find r f finst recent stims o bs extra = (r', Ok (Some c, rst)) -> exists st, rst = Some st.
Proof.
  intros H. destruct (find_inv _ _ _ _ _ _ _ _ _ _ _ H) as (args & r1 & search & l & acc & _ & _ & _ & La & Ec & ->).
  destruct (fstim acc) as [st|] eqn:E; [eauto|]. exfalso. revert E. refine (look_all_stim _ _ _ _ _ _ _ _ _ _ La _ _); [auto|].
  destruct (fchunk acc); [discriminate|discriminate Ec].
Qed.

Lemma locates_slots c st : locates c st -> cslots c <> [].
Proof. intros ((v & E & _) & _) X. rewrite X in E. discriminate. Qed.

Lemma add_effect w i b c t h s w' :
  nth_error (bufs w) i = Some b -> bkind b = KLocation -> step w (OAdd i (AChunk c) t h s) = (w', Ok None) -> holds_chunks w' i [c].
Proof.
  intros Eb Kb H. simpl in H. rewrite Eb in H. unfold add_buf in H. rewrite Kb in H.
  destruct (clear_buf w i b t h) as [w1 [u|e]] eqn:Ec; [|discriminate]. simpl in H. injection H as <-.
  exists (attend (set_data b [c]) s). split.
  - unfold set_buf. simpl bufs. unfold clear_buf in Ec. rewrite Kb in Ec.
    destruct (bdata b); [injection Ec as <- _; apply (upd_same _ _ _ b); exact Eb|].
    destruct (match h with Some m => Some m | None => bdm b end) as [m|]; [|discriminate].
    destruct (nth_error (mems w) m); [|discriminate]. injection Ec as <- _. simpl. rewrite upd_upd. apply (upd_same _ _ _ b). exact Eb.
  - unfold attend. destruct s; [destruct (Nat.eqb _ _)|]; reflexivity.
Qed.

(** The screen can be searched, and buffer [i] is one for locations. *)
Definition searchable (s : st) (i : nat) : Prop :=
  registry_ok (wreg (sw s)) /\ of_kind (sw s) i KLocation /\ forall l, xstim (sscreen s) = Some l -> Forall proper_stim l.

(** The step [h] sees the objects [l] and keeps [finst] markers, of which [recent] are in use. *)
Definition views (h : hop) (i : nat) (l : list stimulus) (finst : nat) (recent : list stimulus) : Prop :=
  xstim (sscreen (hbefore h)) = Some l /\
  exists b, nth_error (bufs (sw (hbefore h))) i = Some b /\ bfinst b = finst /\ bstims b = recent.

Theorem search_effect R O focus name i o bs t s tr tx px py :
  sees O focus -> runs R (start O MRetrieve name i (CChunk o) bs t) s tr FDone ->
  searchable s i -> (forall h, In h tr -> searchable (hbefore h) i) ->
  texts_only o bs -> asks_for o bs tx px py -> (py = Nearest -> px <> Anywhere) ->
  exists h l finst recent, In h tr /\ views h i l finst recent /\
    let adm := admissible o bs (extra_of (hbefore h) name) finst recent tx px py in
    (exists h' c st, In h' tr /\ In st l /\ adm st /\ locates c st /\
       (forall st', In st' l -> adm st' -> ~ dominated px py (focus (hbefore h)) (spot st) (spot st')) /\
       announces h' t name "ENCODED LOCATION" /\ holds_chunks (sw (hafter h')) i [c] /\
       smods (hafter h') = smods (set_state i "free" (hbefore h'))) \/
    ((forall st, In st l -> ~ adm st) /\ announces h t name "ENCODED LOCATION" /\
       smods (hafter h) = smods (set_state i "error" (hbefore h))).
Proof.
  intros Os Hr (_ & Ks & _) Hs To A G.
  destruct (find_effect R O name i _ bs t s tr Ks Hr) as (got & h1 & h2 & rest & -> & _ & L & D).
  assert (I2 : In h2 (h1 :: h2 :: rest)) by (right; left; reflexivity).
  destruct (Hs h2 I2) as (Ro & (b & Eb & Kb) & Fp).
  unfold looks in L. rewrite (Os _ _ _ _ _ _ Eb Kb) in L.
  destruct (visual_find (wreg (sw (hbefore h2))) (focus (hbefore h2)) (bfinst b) (bstims b) (xstim (sscreen (hbefore h2))) o bs (extra_of (hbefore h2) name)) as [r' [[res rst]|e]] eqn:F; cbn [snd] in L; [|discriminate].
  destruct (xstim (sscreen (hbefore h2))) as [l|] eqn:El; [|destruct (find_inv _ _ _ _ _ _ _ _ _ _ _ F) as (? & ? & ? & ? & ? & _ & _ & X & _); discriminate].
  pose proof (find_exact _ _ _ _ _ _ _ _ _ _ _ _ _ _ Ro To A G (Fp l eq_refl) F) as E.
  exists h2, l, (bfinst b), (bstims b). split; [exact I2|]. split; [split; [exact El|exists b; auto]|]. cbv zeta.
  destruct res as [c|].
  - destruct (find_stim _ _ _ _ _ _ _ _ _ _ _ F) as (stm & ->). injection L as <-.
    destruct E as (st & Hin & Ad & Lc & U). pose proof (locates_slots _ _ Lc) as Ns.
    destruct D as [(d & stim & h3 & h4 & Eg & _ & -> & _ & _ & (An & Do) & Sm)|(Fg & _)]; [|elim Ns; exact (Fg c stm eq_refl)].
    injection Eg as <- <-. left.
    exists h3, c, st. split; [right; right; left; reflexivity|]. split; [exact Hin|]. split; [exact Ad|]. split; [exact Lc|]. split; [exact U|].
    split; [exact An|]. split; [|exact Sm].
    destruct (Hs h3 (or_intror (or_intror (or_introl eq_refl)))) as (_ & (b3 & Eb3 & Kb3) & _).
    exact (add_effect _ _ _ _ _ _ _ _ Eb3 Kb3 Do).
  - assert (X : got = None) by (destruct rst; congruence). subst got.
    destruct D as [(d & stim & _ & _ & X & _)|(_ & h3 & -> & _ & An & _ & Sm)]; [discriminate|].
    right. auto.
Qed.
