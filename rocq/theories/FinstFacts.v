(** Proofs about the memory of recent retrievals (C21). *)
From Verif Require Import BaseFacts Chunks ChunkFacts ChunkMatch TypeFacts ResolveFacts DecMem DecMemFacts Buffers BufferFacts ModifyFacts RetrieveFacts.
From Verif Require Import ChunkSpec.
Local Open Scope string_scope.
Arguments hval_eqb : simpl never.
Arguments hash_value : simpl nomatch.
Arguments val_eqb : simpl nomatch.

(** ** Specification *)

(** What the retrievals from buffer [i] returned in a history, oldest first. *)
Definition result_of (i : nat) (w : world) (o : op) : list (option chunk) :=
  match o with
  | ORetrieve j _ _ _ _ _ _ => if Nat.eqb j i then match snd (step w o) with Ok r => [r] | Err _ => [] end else []
  | _ => []
  end.
Fixpoint results (i : nat) (ops : list op) (w : world) : list (option chunk) :=
  match ops with
  | [] => []
  | o :: ops' => (result_of i w o ++ results i ops' (fst (step w o)))%list
  end.
(** The last [n] elements. *)
Definition lastn {A} (n : nat) (l : list A) : list A := skipn (List.length l - n) l.
(** The number of finsts of buffer [i] is not changed. *)
Definition keeps_finst (i : nat) (o : op) : Prop := match o with OSetFinst j _ => j <> i | _ => True end.

(** ** Lists *)

Lemma push_length {A} n (l : list A) x : (List.length l <= n)%nat -> (List.length (push n l x) <= n)%nat.
Proof.
  intros H. unfold push. destruct (n <? S (List.length l))%nat eqn:E.
  - destruct l as [|a l]; simpl in *; [lia|]. rewrite app_length. simpl. lia.
  - apply Nat.ltb_ge in E. rewrite app_length. simpl. lia.
Qed.

Lemma lastn_length {A} n (l : list A) : (List.length (lastn n l) <= n)%nat.
Proof. unfold lastn. rewrite skipn_length. lia. Qed.

Lemma push_lastn {A} n (l : list A) x : (0 < n)%nat -> push n (lastn n l) x = lastn n (l ++ [x]).
Proof.
  intros Hn. unfold push, lastn. rewrite app_length, skipn_length. simpl.
  destruct (n <? S (List.length l - (List.length l - n)))%nat eqn:E.
  - apply Nat.ltb_lt in E. assert (n <= List.length l)%nat by lia.
    replace (List.length l + 1 - n)%nat with (S (List.length l - n)) by lia.
    rewrite !skipn_app. replace (S (List.length l - n) - List.length l)%nat with 0%nat by lia. simpl.
    assert (K : forall k (m : list A), (k < List.length m)%nat -> tl (skipn k m ++ [x]) = (skipn (S k) m ++ [x])%list).
    { clear. induction k as [|k IH]; intros [|a m] H; simpl in *; try lia; [reflexivity|]. apply IH. lia. }
    apply K. lia.
  - apply Nat.ltb_ge in E. assert (List.length l < n)%nat by lia.
    replace (List.length l - n)%nat with 0%nat by lia. replace (List.length l + 1 - n)%nat with 0%nat by lia. reflexivity.
Qed.

(** ** Steps *)

(** Kind, finsts and recent results of buffer [i] are those of [b]. *)
Definition keeps (w' : world) (i : nat) (b : buffer) : Prop :=
  exists b', nth_error (bufs w') i = Some b' /\ bkind b' = bkind b /\ bfinst b' = bfinst b /\ brecent b' = brecent b.

Lemma keeps_refl w i b : nth_error (bufs w) i = Some b -> keeps w i b.
Proof. intros H. exists b. auto. Qed.

Lemma keeps_upd l i b j b0 b1 ms r : nth_error l i = Some b -> nth_error l j = Some b0 ->
  bkind b1 = bkind b0 -> bfinst b1 = bfinst b0 -> brecent b1 = brecent b0 -> keeps (MkW ms (upd l j b1) r) i b.
Proof.
  intros H1 H2 K1 K2 K3. destruct (Nat.eq_dec i j) as [->|N].
  - assert (b0 = b) by congruence. subst b0. exists b1. simpl. split; [apply (upd_same _ _ _ _ H2)|]. auto.
  - exists b. simpl. split; [rewrite upd_other by exact N; exact H1|]. auto.
Qed.

Lemma keeps_snoc l i b x ms r : nth_error l i = Some b -> keeps (MkW ms (l ++ [x]) r) i b.
Proof.
  intros H. exists b. simpl. split; [|auto]. rewrite nth_error_app1; [exact H|]. apply nth_error_Some. congruence.
Qed.

Lemma attend_keeps b s : bkind (attend b s) = bkind b /\ bfinst (attend b s) = bfinst b /\ brecent (attend b s) = brecent b.
Proof. unfold attend. destruct s; [|auto]. destruct (Nat.eqb (bfinst b) 0); auto. Qed.

Lemma clear_keeps w i b j b0 t h : nth_error (bufs w) i = Some b -> nth_error (bufs w) j = Some b0 ->
  keeps (fst (clear_buf w j b0 t h)) i b.
Proof.
  intros H1 H2. unfold clear_buf. destruct (bkind b0) eqn:K; try (apply (keeps_upd _ _ _ _ _ _ _ _ H1 H2); reflexivity);
    (destruct (bdata b0); [apply keeps_refl; exact H1|]; destruct (match h with Some m => Some m | None => bdm b0 end); [|apply keeps_refl; exact H1];
     destruct (nth_error (mems w) _); [|apply keeps_refl; exact H1]; apply (keeps_upd _ _ _ _ _ _ _ _ H1 H2); reflexivity).
Qed.

Lemma clear_bufs w j b0 t h : nth_error (bufs w) j = Some b0 ->
  exists b1, nth_error (bufs (fst (clear_buf w j b0 t h))) j = Some b1 /\ bkind b1 = bkind b0 /\ bfinst b1 = bfinst b0 /\ brecent b1 = brecent b0.
Proof. intros H. destruct (clear_keeps w j b0 j b0 t h H H) as (b1 & E). exists b1. exact E. Qed.

Lemma add_keeps w i b j b0 x t h s : nth_error (bufs w) i = Some b -> nth_error (bufs w) j = Some b0 ->
  keeps (fst (add_buf w j b0 x t h s)) i b.
Proof.
  intros H1 H2. unfold add_buf.
  assert (G : forall w1, w1 = fst (clear_buf w j b0 t h) -> forall b2, bkind b2 = bkind b0 -> bfinst b2 = bfinst b0 -> brecent b2 = brecent b0 -> keeps (set_buf w1 j b2) i b).
  { intros w1 -> b2 K1 K2 K3. destruct (clear_keeps w i b j b0 t h H1 H2) as (b' & E & A1 & A2 & A3).
    destruct (clear_bufs w j b0 t h H2) as (b1 & E1 & B1 & B2 & B3).
    destruct (keeps_upd _ i b' j b1 b2 (mems (fst (clear_buf w j b0 t h))) (wreg (fst (clear_buf w j b0 t h))) E E1) as (b3 & C0 & C1 & C2 & C3); [congruence..|].
    exists b3. split; [exact C0|]. split; [congruence|]. split; congruence. }
  pose proof (clear_keeps w i b j b0 t h H1 H2) as C.
  destruct (bkind b0) eqn:K; [| | | |apply keeps_refl; exact H1].
  - destruct x; apply (keeps_upd _ _ _ _ _ _ _ _ H1 H2); simpl; auto.
  - destruct (clear_buf w j b0 t h) as [w1 [u|e]]; [|exact C]. destruct x; simpl; apply (G w1 eq_refl); auto.
  - destruct (clear_buf w j b0 t h) as [w1 [u|e]]; [|exact C]. destruct x; simpl; apply (G w1 eq_refl); auto.
  - destruct (clear_buf w j b0 t h) as [w1 [u|e]]; [|exact C]. destruct x; simpl; apply (G w1 eq_refl); simpl; auto;
      destruct (attend_keeps (set_data (set_data b0 []) [c]) s) as (A1 & A2 & A3); congruence || (rewrite A1 || rewrite A2 || rewrite A3; simpl; auto).
Qed.

Lemma modify_keeps w i b j b0 o bs s : nth_error (bufs w) i = Some b -> nth_error (bufs w) j = Some b0 ->
  keeps (fst (modify_buf w j b0 o bs s)) i b.
Proof.
  intros H1 H2. unfold modify_buf. destruct (bdata b0) as [|c rest]; [apply keeps_refl; exact H1|].
  destruct (resolve_slots bs true (removeunused o)); [|apply (keeps_upd _ _ _ _ _ _ _ _ H1 H2); reflexivity].
  destruct (mk_chunk _ _ _) as [[r' c']|]; [|apply (keeps_upd _ _ _ _ _ _ _ _ H1 H2); reflexivity].
  destruct (attend_keeps (set_data b0 (set_insert c' rest)) s) as (A1 & A2 & A3).
  apply (keeps_upd _ _ _ _ _ _ _ _ H1 H2); destruct (bkind b0) eqn:K; simpl; rewrite ?A1, ?A2, ?A3; simpl; auto.
Qed.

Lemma step_keeps w i b o : nth_error (bufs w) i = Some b -> keeps_finst i o ->
  exists b', nth_error (bufs (fst (step w o))) i = Some b' /\ bkind b' = bkind b /\ bfinst b' = bfinst b /\
    brecent b' = if Nat.eqb (bfinst b) 0 then brecent b
                 else fold_left (fun l r => push (bfinst b) l r) (result_of i w o) (brecent b).
Proof.
  intros H1 Hf.
  assert (Q0 : forall r : list (option chunk), r = [] -> keeps (fst (step w o)) i b -> exists b', nth_error (bufs (fst (step w o))) i = Some b' /\ bkind b' = bkind b /\ bfinst b' = bfinst b /\
    brecent b' = if Nat.eqb (bfinst b) 0 then brecent b
                 else fold_left (fun l r => push (bfinst b) l r) r (brecent b)).
  { intros r -> (b' & E & A1 & A2 & A3). exists b'. split; [exact E|]. split; [exact A1|]. split; [exact A2|]. rewrite A3. destruct (Nat.eqb (bfinst b) 0); reflexivity. }
  destruct o; try (apply Q0; [reflexivity|]); simpl.
  - apply keeps_refl; exact H1.
  - destruct (nth_error (mems w) m); apply keeps_refl; exact H1.
  - destruct (nth_error (mems w) m); apply keeps_refl; exact H1.
  - destruct (new_buf k m d finst); [apply keeps_snoc; exact H1|apply keeps_refl; exact H1].
  - destruct (nth_error (bufs w) i0) as [b0|] eqn:E; [apply add_keeps; assumption|apply keeps_refl; exact H1].
  - destruct (nth_error (bufs w) i0) as [b0|] eqn:E; [apply clear_keeps; assumption|apply keeps_refl; exact H1].
  - destruct (nth_error (bufs w) i0) as [b0|] eqn:E; [apply modify_keeps; assumption|apply keeps_refl; exact H1].
  - destruct (nth_error (bufs w) i0) as [b0|] eqn:E; [|apply keeps_refl; exact H1]. unfold create_buf.
    destruct (bkind b0) eqn:K; try (apply keeps_refl; exact H1).
    destruct (resolve_slots bs true (removeunused o)); [|apply keeps_refl; exact H1].
    destruct (mk_chunk _ _ _) as [[r' c']|]; [|apply keeps_refl; exact H1].
    apply (keeps_upd _ _ _ _ _ _ _ _ H1 E); reflexivity.
  - destruct (nth_error (bufs w) i0) as [b0|] eqn:E; [|apply keeps_refl; exact H1].
    apply (keeps_upd _ _ _ _ _ _ _ _ H1 E); reflexivity.
  - destruct (nth_error (bufs w) i0) as [b0|] eqn:E; [|apply keeps_refl; exact H1]. unfold copy_buf.
    destruct (bkind b0); try (apply keeps_refl; exact H1);
      (destruct (new_buf _ _ _ _); [apply keeps_snoc; exact H1|apply keeps_refl; exact H1]).
  - destruct (nth_error (bufs w) i0) as [b0|] eqn:E.
    2:{ exists b. destruct (Nat.eqb i0 i) eqn:Ei; simpl; rewrite H1; (destruct (Nat.eqb (bfinst b) 0); auto). }
    destruct (Nat.eqb i0 i) eqn:Ei.
    + apply Nat.eqb_eq in Ei. subst i0. assert (b0 = b) by congruence. subst b0. unfold retrieve_buf.
      assert (N : forall w', bufs w' = bufs w -> exists b', nth_error (bufs w') i = Some b' /\ bkind b' = bkind b /\ bfinst b' = bfinst b /\
         brecent b' = (if Nat.eqb (bfinst b) 0 then brecent b else brecent b)).
      { intros w' Ew. exists b. rewrite Ew. destruct (Nat.eqb (bfinst b) 0); auto. }
      destruct (bkind b) eqn:K; simpl; try (apply N; reflexivity).
      destruct (request (wreg w) o bs) as [[r' pat]|]; simpl; [|apply N; reflexivity].
      destruct (bdm b) as [m|]; simpl; [|apply N; reflexivity].
      destruct (nth_error (mems w) m) as [dm|]; simpl; [|apply N; reflexivity].
      destruct (retrieve_loop _ _ _ _ _ _ _ _ _ _) as [st|]; simpl; [|apply N; reflexivity].
      eexists. split; [apply (upd_same _ _ _ _ H1)|]. destruct (Nat.eqb (bfinst b) 0); simpl; auto.
    + apply Nat.eqb_neq in Ei. exists b. assert (Hn : i <> i0) by congruence.
      assert (G : nth_error (bufs (fst (retrieve_buf w i0 b0 p act time o bs x))) i = Some b).
      { unfold retrieve_buf. destruct (bkind b0); try exact H1. destruct (request (wreg w) o bs) as [[r' pat]|]; [|exact H1].
        destruct (bdm b0) as [m|]; [|exact H1]. destruct (nth_error (mems w) m) as [dm|]; [|exact H1].
        destruct (retrieve_loop _ _ _ _ _ _ _ _ _ _) as [st|]; [|exact H1]. simpl. rewrite upd_other by exact Hn. exact H1. }
      destruct (retrieve_buf w i0 b0 p act time o bs x) as [w' r']. simpl in *. rewrite G. simpl. destruct (Nat.eqb (bfinst b) 0); auto.
  - simpl in Hf. destruct (nth_error (bufs w) i0) as [b0|] eqn:E; [|apply keeps_refl; exact H1].
    exists b. simpl. rewrite upd_other by congruence. auto.
  - destruct (nth_error (bufs w) i0) as [b0|] eqn:E; [|apply keeps_refl; exact H1].
    apply (keeps_upd _ _ _ _ _ _ _ _ H1 E); reflexivity.
  - destruct (nth_error (bufs w) i0) as [b0|] eqn:E; [|apply keeps_refl; exact H1]. destruct (Qle_bool 0 q); [|apply keeps_refl; exact H1].
    apply (keeps_upd _ _ _ _ _ _ _ _ H1 E); reflexivity.
Qed.

(** ** C21 *)

Lemma fold_push n l rs : (0 < n)%nat -> fold_left (fun (l : list (option chunk)) r => push n l r) rs (lastn n l) = lastn n (l ++ rs).
Proof.
  intros Hn. revert l. induction rs as [|r rs IH]; intros l; simpl; [rewrite app_nil_r; reflexivity|].
  rewrite push_lastn by exact Hn. rewrite IH, <- app_assoc. reflexivity.
Qed.

Lemma window_run ops i w b l : nth_error (bufs w) i = Some b -> (0 < bfinst b)%nat -> Forall (keeps_finst i) ops ->
  brecent b = lastn (bfinst b) l ->
  exists b', nth_error (bufs (run ops w)) i = Some b' /\ bkind b' = bkind b /\ bfinst b' = bfinst b /\
    brecent b' = lastn (bfinst b) (l ++ results i ops w).
Proof.
  revert w b l. induction ops as [|o ops IH]; intros w b l H Hn Hf Hr; simpl.
  - exists b. rewrite app_nil_r. auto.
  - inversion Hf as [|? ? F1 F2]; subst. destruct (step_keeps w i b o H F1) as (b1 & E1 & K1 & N1 & R1).
    destruct (Nat.eqb (bfinst b) 0) eqn:E0; [apply Nat.eqb_eq in E0; lia|]. rewrite Hr, fold_push in R1 by exact Hn.
    destruct (IH (fst (step w o)) b1 (l ++ result_of i w o)%list E1) as (b2 & E2 & K2 & N2 & R2); [lia|exact F2|congruence|].
    exists b2. split; [exact E2|]. split; [congruence|]. split; [congruence|]. rewrite R2, N1, <- app_assoc. reflexivity.
Qed.

(** The recent results of a new buffer with [n] finsts are the last [n] results. *)
Theorem recent_window ops i w b : nth_error (bufs w) i = Some b -> brecent b = [] -> (0 < bfinst b)%nat ->
  Forall (keeps_finst i) ops ->
  exists b', nth_error (bufs (run ops w)) i = Some b' /\ bkind b' = bkind b /\ bfinst b' = bfinst b /\
    brecent b' = lastn (bfinst b) (results i ops w).
Proof. intros H1 H2 H3 H4. apply (window_run ops i w b []); assumption. Qed.

Theorem recent_bound ops i w b : nth_error (bufs w) i = Some b -> brecent b = [] -> Forall (keeps_finst i) ops ->
  exists b', nth_error (bufs (run ops w)) i = Some b' /\ (List.length (brecent b') <= bfinst b)%nat.
Proof.
  intros H1 H2 H4. destruct (Nat.eq_dec (bfinst b) 0) as [E|N].
  - assert (G : exists b', nth_error (bufs (run ops w)) i = Some b' /\ bfinst b' = 0%nat /\ brecent b' = []).
    { clear - H1 H2 H4 E. revert w b H1 H2 E. induction H4 as [|o ops Ho Hops IH]; intros w b H1 H2 E; simpl; [eauto|].
      destruct (step_keeps w i b o H1 Ho) as (b1 & E1 & _ & N1 & R1). rewrite E in R1. simpl in R1. apply (IH _ b1 E1); congruence. }
    destruct G as (b' & G1 & G2 & G3). exists b'. rewrite G3. simpl. split; [exact G1|lia].
  - destruct (recent_window ops i w b H1 H2) as (b' & E & _ & _ & R); [lia|exact H4|]. exists b'. rewrite R. split; [exact E|apply lastn_length].
Qed.

Lemma loop_got p act t pat x n rc l : forall k st st', retrieve_loop p act t pat x n rc k l st = Ok st' ->
  (forall c q, rsgot st = Some (c, q) -> passes x n rc c) -> forall c q, rsgot st' = Some (c, q) -> passes x n rc c.
Proof.
  induction l as [|[d ts] l IH]; intros k st st' H H0; simpl in H; [injection H as <-; exact H0|].
  destruct (skipped x n rc d) eqn:Es; cbn [rbind] in H; [apply (IH _ _ _ H H0)|].
  destruct (retrieve_step p act t pat k d ts st) as [st1|] eqn:E; [|discriminate]. cbn [rbind] in H. apply (IH _ _ _ H).
  apply skipped_passes in Es. unfold retrieve_step in E. destruct (psub p).
  - destruct (if ppm p then _ else _) as [[b1 apm] ok]. destruct ok; [|injection E as <-; exact H0].
    destruct (act k) as [| |q0]; [injection E as <-; exact H0|discriminate|].
    destruct (_ && _); injection E as <-; simpl; [|exact H0]. intros c q G. injection G as <- _. exact Es.
  - destruct (chunk_le (rsb st) pat d) as [b1 ok]. destruct ok; [|injection E as <-; exact H0].
    destruct ts as [|t0 ts]; [discriminate|]. destruct (Qeq_bool t0 t); injection E as <-; simpl; [exact H0|].
    intros c q G. injection G as <- _. exact Es.
Qed.

Lemma retrieved_passes w i b p act t o bs x w' c : nth_error (bufs w) i = Some b ->
  step w (ORetrieve i p act t o bs x) = (w', Ok (Some c)) -> passes x (bfinst b) (brecent b) c.
Proof.
  intros H E. simpl in E. rewrite H in E. unfold retrieve_buf in E. destruct (bkind b); try discriminate.
  destruct (request (wreg w) o bs) as [[r' pat]|]; [|discriminate]. destruct (bdm b) as [m|]; [|discriminate].
  destruct (nth_error (mems w) m) as [dm|]; [|discriminate].
  destruct (retrieve_loop _ _ _ _ _ _ _ _ _ _) as [st|] eqn:L; [|discriminate]. simpl in E. injection E as _ E.
  unfold outcome in E. destruct (rsgot st) as [[d q]|] eqn:G; [|discriminate]. simpl in E. injection E as <-.
  apply (loop_got _ _ _ _ _ _ _ _ _ _ _ L) with (q := q); [intros ? ? X; discriminate X|exact G].
Qed.

(** A request that asks for a chunk that was not recently retrieved returns none of the last
    [n] results; one that asks for a recently retrieved chunk returns one of them. *)
Theorem finsts_respected ops i w b p act t o bs x w' c :
  nth_error (bufs w) i = Some b -> brecent b = [] -> (0 < bfinst b)%nat -> Forall (keeps_finst i) ops ->
  step (run ops w) (ORetrieve i p act t o bs x) = (w', Ok (Some c)) ->
  let recent := lastn (bfinst b) (results i ops w) in
  match x with
  | RNone => True
  | RNot => forall d, In (Some d) recent -> ~ same_entry d c
  | ROnly => exists d, In (Some d) recent /\ same_entry d c
  end.
Proof.
  intros H1 H2 H3 H4 E. cbv zeta. destruct (recent_window ops i w b H1 H2 H3 H4) as (b' & E' & _ & N' & R').
  pose proof (retrieved_passes _ _ _ _ _ _ _ _ _ _ _ E' E) as P. rewrite R', N' in P. destruct x; simpl in P.
  - exact I.
  - intros d Hd Hs. destruct P as [P|P]; [lia|]. apply P. exists d. auto.
  - destruct P as [P|(d & P)]; [lia|]. exists d. exact P.
Qed.
