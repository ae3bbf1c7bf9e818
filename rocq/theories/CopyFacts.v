(** Calls that concern some buffers and memories leave all others alone. *)
From Coq Require Import Lia.
From Verif Require Import BaseFacts Chunks DecMem DecMemFacts Buffers BufferFacts CopySpec.
Local Open Scope list_scope.
Local Open Scope nat_scope.

Section Frame.
Variables (J M : nat -> Prop) (n0 m0 : nat).
Hypothesis HJ : forall i, n0 <= i -> J i.
Hypothesis HM : forall k, m0 <= k -> M k.
Record sealed (w : world) : Prop := MkSealed {
  sl_bufs : n0 <= List.length (bufs w);
  sl_mems : m0 <= List.length (mems w);
  sl_dm : forall i b, J i -> nth_error (bufs w) i = Some b -> all_in M (bdm b) }.
Definition local (w w' : world) : Prop :=
  sealed w' /\ (forall i, ~ J i -> nth_error (bufs w') i = nth_error (bufs w) i) /\ (forall k, ~ M k -> nth_error (mems w') k = nth_error (mems w) k).
Lemma local_refl w : sealed w -> local w w.
Proof. intros H. split; [exact H|]. split; reflexivity. Qed.
Lemma local_trans w1 w2 w3 : local w1 w2 -> local w2 w3 -> local w1 w3.
Proof. intros (_ & A & B) (S & C & D). split; [exact S|]. split; intros k Hk; [rewrite C, A by exact Hk|rewrite D, B by exact Hk]; reflexivity. Qed.
Lemma local_buf w i b : sealed w -> J i -> all_in M (bdm b) -> local w (set_buf w i b).
Proof.
  intros [H1 H2 H3] Hi Hb. split; [split; cbn [bufs mems set_buf]; rewrite ?upd_length; auto|].
  - intros j b' Hj. destruct (Nat.eq_dec j i) as [->|N]; [|rewrite upd_other by exact N; apply H3; exact Hj].
    destruct (nth_error (bufs w) i) as [x|] eqn:E; [rewrite (upd_same _ _ _ _ E); intros [= <-]; exact Hb|].
    assert (L : List.length (upd (bufs w) i b) <= i) by (rewrite upd_length; apply nth_error_None; exact E). apply nth_error_None in L. rewrite L. discriminate.
  - split; [|reflexivity]. intros j Hj. cbn [bufs set_buf]. apply upd_other. intros ->. contradiction.
Qed.
Lemma local_mem w m d : sealed w -> M m -> local w (set_mem_at w m d).
Proof.
  intros [H1 H2 H3] Hm. split; [split; cbn [bufs mems set_mem_at]; rewrite ?upd_length; auto|]. split; [reflexivity|]. intros j Hj. cbn [mems set_mem_at]. apply upd_other. intros ->. contradiction.
Qed.
Lemma local_reg w r : sealed w -> local w (set_reg w r).
Proof. intros [H1 H2 H3]. split; [split; auto|]. split; reflexivity. Qed.
Lemma local_more w d : sealed w -> local w (MkW (mems w ++ [d]) (bufs w) (wreg w)).
Proof.
  intros [H1 H2 H3]. split; [split; cbn [bufs mems]; auto; rewrite app_length; lia|]. split; [reflexivity|]. intros k Hk. cbn [mems]. apply nth_error_app1.
  destruct (Nat.lt_ge_cases k (List.length (mems w))) as [L|L]; [exact L|]. elim Hk. apply HM. lia.
Qed.
Lemma local_new w b : sealed w -> all_in M (bdm b) -> local w (MkW (mems w) (bufs w ++ [b]) (wreg w)).
Proof.
  intros [H1 H2 H3] Hb. split; [split; cbn [bufs mems]; auto; [rewrite app_length; lia|]|].
  - intros i b' Hi E. destruct (Nat.lt_ge_cases i (List.length (bufs w))) as [L|L]; [rewrite nth_error_app1 in E by exact L; exact (H3 i b' Hi E)|].
    rewrite nth_error_app2 in E by exact L. destruct (i - List.length (bufs w)) as [|x]; [injection E as <-; exact Hb|destruct x; discriminate].
  - split; [|reflexivity]. intros k Hk. cbn [bufs]. apply nth_error_app1.
    destruct (Nat.lt_ge_cases k (List.length (bufs w))) as [L|L]; [exact L|]. elim Hk. apply HJ. lia.
Qed.
Lemma local_clear w i b t h : sealed w -> J i -> all_in M (bdm b) -> all_in M h -> local w (fst (clear_buf w i b t h)).
Proof.
  intros H Hi Hb Hh. unfold clear_buf. assert (K : local w (set_buf w i (set_data b []))) by (apply local_buf; auto).
  assert (G : forall c rest, local w (fst (match (match h with Some m => Some m | None => bdm b end) with None => (w, Err EAttr) | Some m => match nth_error (mems w) m with None => (w, Err EAttr)
    | Some dm => (set_buf (set_mem_at w m (dm_add dm c t)) i (set_data b rest), Ok tt) end end))).
  { intros c rest. destruct (match h with Some m => Some m | None => bdm b end) as [m|] eqn:E; [|apply local_refl; exact H].
    assert (Hm : M m) by (destruct h as [m'|]; [injection E as <-; exact Hh|rewrite E in Hb; exact Hb]). destruct (nth_error (mems w) m) as [dm|]; [|apply local_refl; exact H].
    pose proof (local_mem w m (dm_add dm c t) H Hm) as L1. apply (local_trans _ _ _ L1). apply local_buf; auto. exact (proj1 L1). }
  destruct (bkind b); try exact K; (destruct (bdata b) as [|c rest]; [apply local_refl; exact H|apply G]).
Qed.
Lemma attend_dm b s : bdm (attend b s) = bdm b.
Proof. unfold attend. destruct s; [|reflexivity]. destruct (Nat.eqb (bfinst b) 0); reflexivity. Qed.
Lemma base_add_dm b x : bdm (fst (base_add b x)) = bdm b.
Proof. destruct x; reflexivity. Qed.
Lemma local_add w i b x t h s : sealed w -> J i -> all_in M (bdm b) -> all_in M h -> local w (fst (add_buf w i b x t h s)).
Proof.
  intros H Hi Hb Hh. unfold add_buf. pose proof (local_clear w i b t h H Hi Hb Hh) as L.
  assert (G : forall k, local w (fst (match clear_buf w i b t h with (w1, Err e) => (w1, Err e) | (w1, Ok _) => let (b', r) := base_add (set_data b []) x in
    match r with Err e => (set_buf w1 i b', Err e) | Ok _ => (set_buf w1 i (match k with KLocation => attend b' s | _ => b' end), Ok tt) end end))).
  { intros k. destruct (clear_buf w i b t h) as [w1 [u|e]]; [|exact L]. cbn [fst] in L. pose proof (base_add_dm (set_data b []) x) as Eb. destruct (base_add (set_data b []) x) as [b' r]. cbn [fst bdm set_data] in Eb.
    assert (Q : forall z, bdm z = bdm b -> local w (set_buf w1 i z)) by (intros z Ez; apply (local_trans _ _ _ L); apply local_buf; [exact (proj1 L)|exact Hi|rewrite Ez; exact Hb]).
    destruct r; cbn [fst]; apply Q; [|exact Eb]. destruct k; rewrite ?attend_dm; exact Eb. }
  destruct (bkind b); try exact (G KRetrieval); try exact (G KVisual); try exact (G KLocation); try (apply local_refl; exact H).
  pose proof (base_add_dm b x) as Eb. destruct (base_add b x) as [b' r]. apply local_buf; [exact H|exact Hi|]. cbn [fst] in Eb. rewrite Eb. exact Hb.
Qed.
Lemma local_modify w i b o bs s : sealed w -> J i -> all_in M (bdm b) -> local w (fst (modify_buf w i b o bs s)).
Proof.
  intros H Hi Hb. unfold modify_buf. destruct (bdata b) as [|c rest]; [apply local_refl; exact H|]. cbv zeta.
  assert (K : local w (set_buf w i (set_data b rest))) by (apply local_buf; auto).
  destruct (resolve_slots _ _ _); [|exact K]. destruct (mk_chunk _ _ _) as [[r' c']|]; [|exact K]. cbn [fst].
  assert (Q : forall z, bdm z = bdm b -> local w (set_reg (set_buf w i z) r')).
  { intros z Ez. assert (L : local w (set_buf w i z)) by (apply local_buf; [exact H|exact Hi|rewrite Ez; exact Hb]). apply (local_trans _ _ _ L). apply local_reg. exact (proj1 L). }
  apply Q. destruct (bkind b); rewrite ?attend_dm; reflexivity.
Qed.
Lemma local_retrieve w i b p act t o bs x : sealed w -> J i -> all_in M (bdm b) -> local w (fst (retrieve_buf w i b p act t o bs x)).
Proof.
  intros H Hi Hb. unfold retrieve_buf. destruct (bkind b); try (apply local_refl; exact H).
  destruct (request _ _ _) as [[r' pat]|]; [|apply local_refl; exact H]. cbv zeta. pose proof (local_reg w r' H) as L1.
  destruct (bdm b) as [m|] eqn:Em; [|exact L1]. destruct (nth_error (mems w) m) as [dm|]; [|exact L1].
  destruct (retrieve_loop _ _ _ _ _ _ _ _ _ _) as [st|]; [|exact L1]. cbn [fst].
  pose proof (local_mem (set_reg w r') m (rsmem st) (proj1 L1) Hb) as L2. apply (local_trans _ _ _ L1), (local_trans _ _ _ L2). apply local_buf; [exact (proj1 L2)|exact Hi|].
  destruct (Nat.eqb (bfinst b) 0); cbn [bdm set_act set_recent]; rewrite Em; exact Hb.
Qed.
Lemma local_step w o : sealed w -> within J M o -> local w (fst (step w o)).
Proof.
  intros H Hw. assert (R : local w w) by (apply local_refl; exact H).
  destruct o as [|m c t|m|k m d f|i x t h s|i t h|i o bs s|i o bs|i c|i h|i p act t o bs x|i f|i m|i q]; cbn [step within] in *.
  - apply local_more; exact H.
  - destruct (nth_error (mems w) m); [apply local_mem; auto|exact R].
  - destruct (nth_error (mems w) m); [apply local_more; exact H|exact R].
  - unfold new_buf. destruct (List.length d <=? 1); [|exact R]. apply local_new; auto.
  - destruct Hw as [Hi Hh]. destruct (nth_error (bufs w) i) as [b|] eqn:E; [|exact R]. apply local_add; auto. exact (sl_dm w H i b Hi E).
  - destruct Hw as [Hi Hh]. destruct (nth_error (bufs w) i) as [b|] eqn:E; [|exact R]. apply local_clear; auto. exact (sl_dm w H i b Hi E).
  - destruct (nth_error (bufs w) i) as [b|] eqn:E; [|exact R]. apply local_modify; auto. exact (sl_dm w H i b Hw E).
  - destruct (nth_error (bufs w) i) as [b|] eqn:E; [|exact R]. pose proof (sl_dm w H i b Hw E) as Hb. unfold create_buf. destruct (bkind b); try exact R.
    destruct (resolve_slots _ _ _); [|exact R]. destruct (mk_chunk _ _ _) as [[r' c']|]; [|exact R]. cbn [fst].
    assert (L : local w (set_buf w i (set_data b [c']))) by (apply local_buf; auto). apply (local_trans _ _ _ L). apply local_reg. exact (proj1 L).
  - destruct (nth_error (bufs w) i) as [b|] eqn:E; [|exact R]. apply local_buf; auto. exact (sl_dm w H i b Hw E).
  - destruct Hw as [Hi Hh]. destruct (nth_error (bufs w) i) as [b|] eqn:E; [|exact R]. pose proof (sl_dm w H i b Hi E) as Hb. unfold copy_buf, new_buf.
    destruct (bkind b); try exact R; (destruct (List.length (bdata b) <=? 1); [|exact R]; apply local_new; [exact H|]; destruct h; assumption).
  - destruct (nth_error (bufs w) i) as [b|] eqn:E; [|exact R]. pose proof (local_retrieve w i b p act t o bs x H Hw (sl_dm w H i b Hw E)) as L. destruct (retrieve_buf w i b p act t o bs x). exact L.
  - destruct (nth_error (bufs w) i) as [b|] eqn:E; [|exact R]. apply local_buf; auto. exact (sl_dm w H i b Hw E).
  - destruct Hw as [Hi Hm]. destruct (nth_error (bufs w) i) as [b|] eqn:E; [|exact R]. apply local_buf; auto.
  - destruct (nth_error (bufs w) i) as [b|] eqn:E; [|exact R]. destruct (Qle_bool 0 q); [|exact R]. apply local_buf; auto. exact (sl_dm w H i b Hw E).
Qed.
Lemma local_run ops : forall w, sealed w -> Forall (within J M) ops -> local w (run ops w).
Proof.
  induction ops as [|o ops IH]; intros w H F; [apply local_refl; exact H|]. inversion F as [|x y Ho Hos]; subst. pose proof (local_step w o H Ho) as L.
  apply (local_trans _ _ _ L). apply (IH (fst (step w o))); [exact (proj1 L)|exact Hos].
Qed.
End Frame.

(** Copying a buffer. *)
Lemma copy_step w i h b : nth_error (bufs w) i = Some b -> bkind b = KGoal \/ bkind b = KRetrieval -> (List.length (bdata b) <= 1)%nat ->
  step w (OCopy i h) = (MkW (mems w) (bufs w ++ [MkBuf (bkind b) (bdata b) (match h with Some m => Some m | None => bdm b end) 0 [] [] None 0]) (wreg w), Ok None).
Proof.
  intros E K L. cbn [step]. rewrite E. unfold copy_buf, new_buf. apply Nat.leb_le in L. rewrite L. destruct K as [-> | ->]; reflexivity.
Qed.
Lemma last_new {A} (l : list A) x : nth_error (l ++ [x]) (List.length l) = Some x.
Proof. rewrite nth_error_app2, Nat.sub_diag; [reflexivity|lia]. Qed.

Theorem copied_buffer ops i h b : nth_error (bufs (run ops world0)) i = Some b -> bkind b = KGoal \/ bkind b = KRetrieval ->
  let w := run ops world0 in exists w' b', step w (OCopy i h) = (w', Ok None) /\ nth_error (bufs w') (List.length (bufs w)) = Some b' /\ bkind b' = bkind b /\ bdata b' = bdata b /\
    bdm b' = (match h with Some m => Some m | None => bdm b end) /\ mems w' = mems w /\ forall j, j < List.length (bufs w) -> nth_error (bufs w') j = nth_error (bufs w) j.
Proof.
  intros E K w. assert (L : (List.length (bdata b) <= 1)%nat) by (destruct (buffer_at_most_one ops i (bdata b)) as [->|(c & ->)]; [exists b; auto|cbn; lia|cbn; lia]).
  do 2 eexists. split; [exact (copy_step w i h b E K L)|]. cbn [bufs mems]. split; [apply last_new|]. repeat split. intros j Hj. apply nth_error_app1. exact Hj.
Qed.

(** No memory has two entries for the same chunk. *)
Definition mems_ok (l : list decmem) : Prop := Forall dm_ok l.
Lemma add_ok m c t : dm_ok m -> dm_ok (dm_add m c t).
Proof. apply (proj2 (proj2 (proj2 (add_spec m c t)))). Qed.
Lemma clear_ok w i b t h : mems_ok (mems w) -> mems_ok (mems (fst (clear_buf w i b t h))).
Proof.
  intros H. unfold clear_buf. destruct (bkind b); [..|exact H];
    (destruct (bdata b) as [|c rest]; [exact H|]; destruct (match h with Some m => Some m | None => bdm b end) as [m|]; [|exact H];
     destruct (nth_error (mems w) m) as [dm|] eqn:E; [|exact H]; apply upd_Forall; [exact H|apply add_ok; exact (nth_Forall _ _ _ _ H E)]).
Qed.
Lemma update_ok l : forall m, dm_ok m -> dm_ok (dm_update m l).
Proof. unfold dm_update. induction l as [|[c ts] l IH]; intros m H; [exact H|]. cbn [fold_left]. apply IH. apply setitem_ok. exact H. Qed.
Lemma step_ok w o : mems_ok (mems w) -> mems_ok (mems (fst (step w o))).
Proof.
  intros H. assert (Ee : dm_ok dm_empty) by exact I. destruct o as [|m c t|m|k m d f|i x t h s|i t h|i o bs s|i o bs|i c|i h|i p act t o bs x|i f|i m|i q]; cbn [step].
  - apply Forall_snoc; [exact H|exact Ee].
  - destruct (nth_error (mems w) m) eqn:E; [|exact H]. apply upd_Forall; [exact H|apply add_ok; exact (nth_Forall _ _ _ _ H E)].
  - destruct (nth_error (mems w) m) eqn:E; [|exact H]. apply Forall_snoc; [exact H|]. exact (update_ok _ _ Ee).
  - destruct (new_buf _ _ _ _); exact H.
  - destruct (nth_error (bufs w) i) as [b|]; [|exact H]. unfold add_buf. cbn [fst].
    destruct (bkind b) eqn:K; [destruct x; exact H|..|exact H]; (pose proof (clear_ok w i b t h H) as C; destruct (clear_buf w i b t h) as [w1 [u|e]]; [|exact C]; destruct x; exact C).
  - destruct (nth_error (bufs w) i) as [b|]; [|exact H]. apply clear_ok. exact H.
  - destruct (nth_error (bufs w) i) as [b|]; [|exact H]. unfold modify_buf.
    destruct (bdata b); [exact H|]. destruct (resolve_slots _ _ _); [|exact H]. destruct (mk_chunk _ _ _) as [[? ?]|]; exact H.
  - destruct (nth_error (bufs w) i) as [b|]; [|exact H]. unfold create_buf.
    destruct (bkind b); try exact H. destruct (resolve_slots _ _ _); [|exact H]. destruct (mk_chunk _ _ _) as [[? ?]|]; exact H.
  - destruct (nth_error (bufs w) i) as [b|]; exact H.
  - destruct (nth_error (bufs w) i) as [b|]; [|exact H]. unfold copy_buf. destruct (bkind b); try exact H; destruct (new_buf _ _ _ _); exact H.
  - destruct (nth_error (bufs w) i) as [b|]; [|exact H]. destruct (retrieve_buf w i b p act t o bs x) as [w' r] eqn:R. cbn [fst].
    unfold retrieve_buf in R. destruct (bkind b); try (injection R as <- _; exact H).
    destruct (request _ _ _) as [[r' pat]|]; [|injection R as <- _; exact H]. destruct (bdm b) as [m|]; [|injection R as <- _; exact H].
    destruct (nth_error (mems w) m) as [dm|] eqn:Em; [|injection R as <- _; exact H]. destruct (retrieve_loop _ _ _ _ _ _ _ _ _ _) as [st|] eqn:L; [|injection R as <- _; exact H].
    injection R as <- _. apply upd_Forall; [exact H|]. unfold dm_ok. rewrite (retrieve_loop_data _ _ _ _ _ _ _ _ _ _ _ L). exact (nth_Forall _ _ _ _ H Em).
  - destruct (nth_error (bufs w) i) as [b|]; exact H.
  - destruct (nth_error (bufs w) i) as [b|]; exact H.
  - destruct (nth_error (bufs w) i) as [b|]; [|exact H]. destruct (Qle_bool 0 q); exact H.
Qed.
Lemma run_ok ops : forall w, mems_ok (mems w) -> mems_ok (mems (run ops w)).
Proof. unfold run. induction ops as [|o ops IH]; intros w H; [exact H|]. cbn [fold_left]. apply IH, step_ok, H. Qed.
Lemma reached_small ops i b : nth_error (bufs (run ops world0)) i = Some b -> (List.length (bdata b) <= 1)%nat.
Proof. intros E. destruct (buffer_at_most_one ops i (bdata b)) as [->|(c & ->)]; [exists b; auto|cbn; lia|cbn; lia]. Qed.

(** A buffer copied together with its memory. *)
Definition copied_pair (w : world) (i m : nat) : world := run [OMemCopy m; OCopy i (Some (List.length (mems w)))] w.
Lemma copied_pair_eq w i m b dm : nth_error (bufs w) i = Some b -> bkind b = KGoal \/ bkind b = KRetrieval -> (List.length (bdata b) <= 1)%nat -> nth_error (mems w) m = Some dm ->
  copied_pair w i m = MkW (mems w ++ [dm_copy dm]) (bufs w ++ [MkBuf (bkind b) (bdata b) (Some (List.length (mems w))) 0 [] [] None 0]) (wreg w).
Proof.
  intros E K L Em. unfold copied_pair, run. cbn [fold_left]. assert (S1 : step w (OMemCopy m) = (MkW (mems w ++ [dm_copy dm]) (bufs w) (wreg w), Ok None)) by (cbn [step]; rewrite Em; reflexivity).
  rewrite S1. cbn [fst]. rewrite (copy_step (MkW (mems w ++ [dm_copy dm]) (bufs w) (wreg w)) i (Some (List.length (mems w))) b E K L). reflexivity.
Qed.
Theorem copy_apart ops0 i m b dm ops : let w := run ops0 world0 in nth_error (bufs w) i = Some b -> bkind b = KGoal \/ bkind b = KRetrieval -> nth_error (mems w) m = Some dm ->
  let w1 := copied_pair w i m in
  Forall (within (fun j => List.length (bufs w) <= j) (fun k => List.length (mems w) <= k)) ops ->
  (forall j, j < List.length (bufs w) -> nth_error (bufs (run ops w1)) j = nth_error (bufs w) j) /\
  (forall k, k < List.length (mems w) -> nth_error (mems (run ops w1)) k = nth_error (mems w) k).
Proof.
  intros w E K Em w1 F. pose proof (reached_small _ _ _ E) as L. pose proof (copied_pair_eq w i m b dm E K L Em) as Ew. fold w1 in Ew.
  assert (Hs : sealed (fun j => List.length (bufs w) <= j) (fun k => List.length (mems w) <= k) (List.length (bufs w)) (List.length (mems w)) w1).
  { rewrite Ew. split; cbn [bufs mems]; [rewrite app_length; lia|rewrite app_length; lia|]. intros j b' Hj Eb. rewrite nth_error_app2 in Eb by exact Hj.
    destruct (j - List.length (bufs w)) as [|x]; [injection Eb as <-; cbn; lia|destruct x; discriminate]. }
  destruct (local_run _ _ _ _ (fun i H => H) (fun i H => H) ops w1 Hs F) as (_ & A & B). split; intros k Hk.
  - rewrite A by lia. rewrite Ew. cbn [bufs]. apply nth_error_app1. exact Hk.
  - rewrite B by lia. rewrite Ew. cbn [mems]. apply nth_error_app1. exact Hk.
Qed.
Theorem original_apart ops0 i m b dm ops : let w := run ops0 world0 in nth_error (bufs w) i = Some b -> bkind b = KGoal \/ bkind b = KRetrieval -> nth_error (mems w) m = Some dm -> rooted w ->
  let w1 := copied_pair w i m in let j := List.length (bufs w) in let k := List.length (mems w) in
  Forall (within (fun x => x <> j) (fun x => x <> k)) ops ->
  nth_error (bufs (run ops w1)) j = nth_error (bufs w1) j /\ nth_error (mems (run ops w1)) k = nth_error (mems w1) k.
Proof.
  intros w E K Em Hr w1 j k F. pose proof (reached_small _ _ _ E) as L. pose proof (copied_pair_eq w i m b dm E K L Em) as Ew. fold w1 in Ew.
  assert (Hs : sealed (fun x => x <> j) (fun x => x <> k) (Datatypes.S j) (Datatypes.S k) w1).
  { rewrite Ew. split; cbn [bufs mems]; [rewrite app_length; cbn; lia|rewrite app_length; cbn; lia|]. intros x b' Hx Eb.
    destruct (Nat.lt_ge_cases x j) as [Lx|Lx].
    - rewrite nth_error_app1 in Eb by exact Lx. destruct (bdm b') as [m'|] eqn:Ed; [|exact I]. cbn. pose proof (Hr b' m' (nth_error_In _ _ Eb) Ed). lia.
    - assert (Z : List.length (bufs w ++ [MkBuf (bkind b) (bdata b) (Some (List.length (mems w))) 0 [] [] None 0]) <= x) by (rewrite app_length; cbn; lia).
      apply nth_error_None in Z. rewrite Z in Eb. discriminate. }
  assert (Nn : forall x, Datatypes.S j <= x -> x <> j) by (intros; lia). assert (Nn2 : forall x, Datatypes.S k <= x -> x <> k) by (intros; lia).
  destruct (local_run (fun x => x <> j) (fun x => x <> k) (Datatypes.S j) (Datatypes.S k) Nn Nn2 ops w1 Hs F) as (_ & A & B).
  split; [apply A|apply B]; intros X; apply X; reflexivity.
Qed.

(** ** Counterexamples and examples *)
Definition cx_chunk : chunk := MkChunk "fact"%string [("a"%string, plain (VStr "x"%string))].
Definition cx_ops : list op := [ONewMem; OMemAdd 0 cx_chunk 0%Q; ONew KRetrieval (Some 0) [cx_chunk] 2].
Lemma memory_shared : exists ops i b t dm dm', let w := run ops world0 in
  nth_error (bufs w) i = Some b /\ bkind b = KRetrieval /\ bdm b = Some 0 /\ nth_error (mems w) 0 = Some dm /\
  nth_error (mems (run [OCopy i None; OClear (List.length (bufs w)) t None] w)) 0 = Some dm' /\ dmdata dm' <> dmdata dm.
Proof.
  exists cx_ops, 0. eexists. exists 1%Q. do 2 eexists. cbv zeta. split; [vm_compute; reflexivity|]. split; [reflexivity|]. split; [reflexivity|]. split; [vm_compute; reflexivity|]. split; [vm_compute; reflexivity|]. vm_compute. discriminate.
Qed.
Lemma settings_lost : exists ops i b w' b', nth_error (bufs (run ops world0)) i = Some b /\ step (run ops world0) (OCopy i None) = (w', Ok None) /\
  nth_error (bufs w') (List.length (bufs (run ops world0))) = Some b' /\ ~ same_buffer b b'.
Proof.
  exists cx_ops, 0. do 3 eexists. split; [vm_compute; reflexivity|]. split; [vm_compute; reflexivity|]. split; [vm_compute; reflexivity|]. intros (_ & _ & X & _). vm_compute in X. discriminate X.
Qed.
(** The copy of the pair. *)
Lemma copied_pair_start ops i m b dm : let w := run ops world0 in nth_error (bufs w) i = Some b -> bkind b = KGoal \/ bkind b = KRetrieval -> nth_error (mems w) m = Some dm ->
  exists b' dm', nth_error (bufs (copied_pair w i m)) (List.length (bufs w)) = Some b' /\ nth_error (mems (copied_pair w i m)) (List.length (mems w)) = Some dm' /\
    bkind b' = bkind b /\ bdata b' = bdata b /\ bdm b' = Some (List.length (mems w)) /\ dm' = dm.
Proof.
  intros w E K Em. rewrite (copied_pair_eq w i m b dm E K (reached_small _ _ _ E) Em). do 2 eexists. cbn [bufs mems]. split; [apply last_new|]. split; [apply last_new|]. repeat split.
  apply copy_same. assert (O : mems_ok (mems w)) by (apply run_ok; constructor). exact (nth_Forall _ _ _ _ O Em).
Qed.
Definition cx_later : list op := [OClear 1 3%Q None; OCopy 1 None; OMemAdd 1 cx_chunk 4%Q; OSetFinst 1 3].
Lemma copies_used : let w := run cx_ops world0 in exists b dm, nth_error (bufs w) 0 = Some b /\ bkind b = KRetrieval /\ nth_error (mems w) 0 = Some dm /\ rooted w /\
  Forall (within (fun j => List.length (bufs w) <= j) (fun k => List.length (mems w) <= k)) cx_later /\
  Forall (within (fun x => x <> List.length (bufs w)) (fun x => x <> List.length (mems w))) [OClear 0 3%Q None; OMemAdd 0 cx_chunk 4%Q] /\
  mems (run cx_later (copied_pair w 0 0)) <> mems (copied_pair w 0 0) /\ mems (run [OClear 0 3%Q None; OMemAdd 0 cx_chunk 4%Q] (copied_pair w 0 0)) <> mems (copied_pair w 0 0).
Proof.
  cbv zeta. do 2 eexists. split; [vm_compute; reflexivity|]. split; [reflexivity|]. split; [vm_compute; reflexivity|].
  assert (L1 : List.length (bufs (run cx_ops world0)) = 1) by (vm_compute; reflexivity). assert (L2 : List.length (mems (run cx_ops world0)) = 1) by (vm_compute; reflexivity). rewrite L1, L2.
  split; [intros b m [<-|[]] [= <-]; rewrite L2; lia|]. split; [repeat constructor|]. split; [repeat constructor; cbn; lia|]. split; vm_compute; discriminate.
Qed.
