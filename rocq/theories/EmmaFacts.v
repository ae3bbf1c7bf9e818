(** Proofs about visual angles, the times of eye movements and automatic buffering (C93 to C96). *)
From Coq Require Import Reals Qreals Lra Psatz.
From Verif Require Import Base BaseFacts Chunks Buffers Productions SafeSpec Emma.
Local Open Scope R_scope.

(** A screen that one can look at. *)
Definition visible (d : display) : Prop := 0 < fst (dsize d) /\ 0 < fst (dscreen d) /\ 0 < dview d.

(** ** Specification: what a viewer sees *)

Definition height_px_per_cm (d : display) : R := snd (dsize d) / snd (dscreen d).
(** The distance on the simulated screen, in cm: widths and heights are measured each on its own scale. *)
Definition cm_apart (f p : R * R) (d : display) : R :=
  sqrt (((fst p - fst f) / px_per_cm d) * ((fst p - fst f) / px_per_cm d) +
        ((snd p - snd f) / height_px_per_cm d) * ((snd p - snd f) / height_px_per_cm d)).
Definition seen_angle (f p : R * R) (d : display) : R := atan (cm_apart f p d / dview d).
Definition degrees (a : R) : R := 180 * a / PI.

(** ** Angles *)

Lemma px_pos d : visible d -> 0 < px_per_cm d.
Proof. intros (A & B & _). unfold px_per_cm. apply Rdiv_lt_0_compat; assumption. Qed.
Lemma apart_pos f p : 0 <= pixels_apart f p. Proof. apply sqrt_pos. Qed.
Lemma squares_pos a b : 0 <= a * a + b * b. Proof. nra. Qed.
Lemma apart_zero f p : pixels_apart f p = 0 <-> f = p.
Proof.
  unfold pixels_apart. split.
  - intros H. apply sqrt_eq_0 in H; [|apply squares_pos]. destruct f as [x y], p as [u v]; cbn [fst snd] in *.
    destruct (Rplus_sqr_eq_0 (u - x) (v - y) H). f_equal; lra.
  - intros ->. replace (_ + _) with 0 by ring. apply sqrt_0.
Qed.
Lemma apart_sym f p : pixels_apart f p = pixels_apart p f.
Proof. unfold pixels_apart. f_equal. ring. Qed.

Lemma angle_atan f p d : visible d -> visual_angle f p d = atan (pixels_apart f p / px_per_cm d / dview d).
Proof. intros (_ & _ & V). unfold visual_angle, atan2. destruct (Rlt_dec 0 (dview d)); [reflexivity|contradiction]. Qed.
Lemma ratio_mono a b c e : 0 < c -> 0 < e -> a < b -> a / c / e < b / c / e.
Proof. intros C D L. unfold Rdiv. apply Rmult_lt_compat_r; [apply Rinv_0_lt_compat; exact D|]. apply Rmult_lt_compat_r; [apply Rinv_0_lt_compat; exact C|exact L]. Qed.
Lemma ratio_pos a c e : 0 < c -> 0 < e -> 0 <= a -> 0 <= a / c / e.
Proof. intros C D L. unfold Rdiv. apply Rmult_le_pos; [apply Rmult_le_pos; [exact L|]|]; left; apply Rinv_0_lt_compat; assumption. Qed.

Theorem angle_symmetric f p d : visual_angle f p d = visual_angle p f d.
Proof. unfold visual_angle. rewrite apart_sym. reflexivity. Qed.

Theorem angle_range f p d : visible d -> 0 <= visual_angle f p d < PI / 2 /\ (visual_angle f p d = 0 <-> f = p).
Proof.
  intros V. rewrite (angle_atan _ _ _ V). pose proof (px_pos _ V) as P. destruct V as (_ & _ & V).
  pose proof (ratio_pos _ _ _ P V (apart_pos f p)) as N. split; [split|split].
  - destruct N as [N|N]; [rewrite <- atan_0; left; apply atan_increasing; exact N|rewrite <- N, atan_0; lra].
  - apply atan_bound.
  - intros H. apply apart_zero. assert (T : tan (atan (pixels_apart f p / px_per_cm d / dview d)) = 0) by (rewrite H; apply tan_0).
    rewrite tan_atan in T. destruct (apart_pos f p) as [A|A]; [|symmetry; exact A].
    pose proof (ratio_mono _ _ _ _ P V A). unfold Rdiv at 1 2 in H0. rewrite !Rmult_0_l in H0. lra.
  - intros ->. rewrite (proj2 (apart_zero p p) eq_refl). unfold Rdiv. rewrite !Rmult_0_l. apply atan_0.
Qed.

Theorem angle_grows f p g q d : visible d -> pixels_apart f p < pixels_apart g q -> visual_angle f p d < visual_angle g q d.
Proof.
  intros V L. rewrite !(angle_atan _ _ _ V). apply atan_increasing. pose proof (px_pos _ V) as P. destruct V as (_ & _ & V). apply ratio_mono; assumption.
Qed.
Theorem angle_shrinks f p d v : visible d -> dview d < v -> f <> p -> visual_angle f p (MkDisp (dsize d) (dscreen d) v) < visual_angle f p d.
Proof.
  intros V L N. pose proof (px_pos _ V) as P. pose proof V as (V1 & V2 & V3).
  assert (V' : visible (MkDisp (dsize d) (dscreen d) v)) by (repeat split; cbn; lra). rewrite (angle_atan _ _ _ V), (angle_atan _ _ _ V'). apply atan_increasing.
  change (px_per_cm (MkDisp (dsize d) (dscreen d) v)) with (px_per_cm d). cbn [dview].
  assert (A : 0 < pixels_apart f p). { destruct (apart_pos f p) as [A|A]; [exact A|]. elim N. apply apart_zero. symmetry. exact A. }
  unfold Rdiv at 1 3. apply Rmult_lt_compat_l; [apply Rdiv_lt_0_compat; assumption|]. apply Rinv_lt_contravar; [nra|exact L].
Qed.

(** With the same scale for widths and heights it is the angle that a viewer sees. *)
Theorem angle_seen f p d : visible d -> height_px_per_cm d = px_per_cm d -> visual_angle f p d = seen_angle f p d.
Proof.
  intros V H. rewrite (angle_atan _ _ _ V). unfold seen_angle, cm_apart. rewrite H. pose proof (px_pos _ V) as P. do 2 f_equal.
  unfold pixels_apart. set (a := fst p - fst f). set (b := snd p - snd f). set (k := px_per_cm d) in *.
  replace (a / k * (a / k) + b / k * (b / k)) with ((a * a + b * b) / (k * k)) by (field; lra).
  rewrite sqrt_div_alt by nra. f_equal. rewrite sqrt_square by lra. reflexivity.
Qed.

Definition usual_screen : display := MkDisp (640, 360) (50, 28) 50.
Lemma usual_visible : visible usual_screen. Proof. unfold visible, usual_screen. cbn. lra. Qed.
Theorem angle_not_seen : visual_angle (320, 180) (320, 360) usual_screen <> seen_angle (320, 180) (320, 360) usual_screen.
Proof.
  rewrite (angle_atan _ _ _ usual_visible). unfold seen_angle. apply Rgt_not_eq. apply atan_increasing.
  unfold pixels_apart, cm_apart, px_per_cm, height_px_per_cm, usual_screen. cbn [fst snd dsize dscreen dview].
  replace ((320 - 320) / (640 / 50) * ((320 - 320) / (640 / 50)) + (360 - 180) / (360 / 28) * ((360 - 180) / (360 / 28))) with (14 * 14) by field.
  replace ((320 - 320) * (320 - 320) + (360 - 180) * (360 - 180)) with (180 * 180) by ring. rewrite !sqrt_square by lra. lra.
Qed.

(** ** Times *)

Theorem encoding_grows K k v a b : 0 <= K * v -> 0 <= k -> a <= b ->
  0 <= encoding_time a K k None (Some v) <= encoding_time b K k None (Some v) /\
  (0 < K * v -> 0 < k -> a < b -> encoding_time a K k None (Some v) < encoding_time b K k None (Some v)).
Proof.
  intros A B L. unfold encoding_time. pose proof (exp_pos (k * a)). assert (I : exp (k * a) <= exp (k * b)).
  { destruct L as [L|L]; [|rewrite L; lra]. destruct B as [B|B]; [|rewrite <- B, !Rmult_0_l; lra]. left. apply exp_increasing. apply Rmult_lt_compat_l; assumption. }
  split; [nra|]. intros A' B' L'. apply Rmult_lt_compat_l; [exact A'|]. apply exp_increasing. apply Rmult_lt_compat_l; assumption.
Qed.

(** Another look at an object that the eyes rest on takes no longer than the first one from afar. *)
Theorem look_again m d f p vd : visible d -> 0 <= escale m -> 0 <= eangle m -> (forall v, vd = Some v -> 0 <= v) ->
  fst (fst (shift_times m d p p vd None None None)) <= fst (fst (shift_times m d f p vd None None None)).
Proof.
  intros V A B C. unfold shift_times. destruct (eon m); [|cbn; lra]. cbn [fst]. destruct vd as [v|]; [|cbn; lra].
  rewrite (proj2 (proj2 (angle_range p p d V)) eq_refl). apply encoding_grows; [|exact B|apply angle_range; exact V].
  apply Rmult_le_pos; [exact A|]. apply C. reflexivity.
Qed.

(** The documented formula has the angle in degrees. *)
Theorem encoding_not_degrees K k v a : K * v <> 0 -> k <> 0 -> 0 < a ->
  encoding_time a K k None (Some v) <> K * v * exp (k * degrees a).
Proof.
  intros A B P H. unfold encoding_time in H. apply Rmult_eq_reg_l in H; [|exact A]. apply exp_inv in H. apply Rmult_eq_reg_l in H; [|exact B].
  unfold degrees in H. pose proof PI_RGT_0 as PP. assert (X : a * PI = 180 * a). { rewrite H at 1. field. lra. }
  pose proof PI_4. nra.
Qed.
Theorem encoding_rescaled K k v a : encoding_time a K (k * 180 / PI) None (Some v) = K * v * exp (k * degrees a).
Proof. unfold encoding_time, degrees. f_equal. f_equal. field. apply PI_neq0. Qed.

Lemma degrees_range a : 0 <= a < PI / 2 -> 0 <= degrees a < 90.
Proof.
  intros [A B]. pose proof PI_RGT_0 as P. unfold degrees. split.
  - apply Rmult_le_pos; [lra|]. left. apply Rinv_0_lt_compat. exact P.
  - apply (Rmult_lt_reg_r PI); [exact P|]. unfold Rdiv. rewrite Rmult_assoc, Rinv_l by lra. lra.
Qed.

Theorem execution_range f p d : visible d -> 7 / 100 <= execution_time (visual_angle f p d) None < 25 / 100.
Proof.
  intros V. destruct (angle_range f p d V) as [H _]. apply degrees_range in H. unfold execution_time. fold (degrees (visual_angle f p d)). lra.
Qed.
Theorem execution_grows f p g q d : visible d -> pixels_apart f p < pixels_apart g q ->
  execution_time (visual_angle f p d) None < execution_time (visual_angle g q d) None.
Proof.
  intros V L. pose proof (angle_grows _ _ _ _ _ V L) as A. unfold execution_time. apply Rplus_lt_compat_l. apply Rmult_lt_compat_l; [lra|].
  unfold Rdiv. apply Rmult_lt_compat_r; [apply Rinv_0_lt_compat; apply PI_RGT_0|]. lra.
Qed.

(** The eyes have arrived between 85 and 385 ms after the request. *)
Theorem arrival m d f p vd : visible d ->
  let '(enc, prep, exe) := shift_times m d f p vd None None None in
  85 / 1000 <= prep + exe < 385 / 1000 /\ (eon m = true -> prep = 135 / 1000 /\ 205 / 1000 <= prep + exe).
Proof.
  intros V. unfold shift_times. pose proof (execution_range f p d V) as E. destruct (eon m); cbn [preparation_time]; split; try discriminate; try lra.
Qed.
(** With noise no time is negative: samples of the gamma distribution are not. *)
Theorem noisy_times m d f p vd z1 z2 z3 : visible d -> 0 <= escale m -> (forall v, vd = Some v -> 0 <= v) -> 0 < z1 -> 0 < z2 -> 0 < z3 ->
  let '(enc, prep, exe) := shift_times m d f p vd (Some z1) (Some z2) (Some z3) in 0 <= enc /\ 0 <= prep /\ 0 < exe.
Proof.
  intros V A B Z1 Z2 Z3. unfold shift_times. pose proof (execution_range f p d V) as E. unfold execution_time in *. destruct (eon m); [|cbn; lra].
  repeat split.
  - unfold encoding_time. destruct vd as [v|]; [|lra]. pose proof (exp_pos (eangle m * visual_angle f p d)). specialize (B v eq_refl).
    apply Rmult_le_pos; [|lra]. apply Rmult_le_pos; [|lra]. apply Rmult_le_pos; [|lra]. apply Rmult_le_pos; lra.
  - unfold preparation_time. lra.
  - apply Rmult_lt_0_compat; [|exact Z3]. lra.
Qed.

(** The execution times of the simulation are those of EMMA without noise, up to 10 ms. *)
Definition follows_emma (O : oracle) : Prop := forall s i c bs w ch enc prep exe site,
  oshift O s i c bs = (w, Ok (ch, (enc, prep, exe), site)) ->
  exists m d f p vd, visible d /\ Rabs (Q2R exe - snd (shift_times m d f p vd None None None)) <= 1 / 100.
Theorem emma_slow O : follows_emma O -> slow_eyes O.
Proof.
  intros F s i c bs w ch enc prep exe site H. destruct (F _ _ _ _ _ _ _ _ _ _ H) as (m & d & f & p & vd & V & A).
  apply Rle_Qle. assert (X : Q2R (2 # 10000) = 2 / 10000) by (unfold Q2R; cbn; lra). rewrite X.
  assert (Y : 7 / 100 <= snd (shift_times m d f p vd None None None)).
  { unfold shift_times. pose proof (execution_range f p d V). destruct (eon m); cbn [snd]; lra. }
  unfold Rabs in A. destruct (Rcase_abs _) in A; lra.
Qed.

(** ** Automatic buffering *)

Lemma one_degree : 0 < PI / 180 < PI / 4.
Proof. pose proof PI_RGT_0. split; lra. Qed.
Lemma tan_one : 0 < tan (PI / 180) < 1.
Proof.
  pose proof one_degree as [A B]. pose proof PI_RGT_0 as P. split.
  - apply tan_gt_0; lra.
  - rewrite <- tan_PI4. apply tan_increasing; lra.
Qed.
Lemma tan_two : 2 * tan (PI / 180) <= tan (PI / 90).
Proof.
  pose proof one_degree as [A B]. pose proof PI_RGT_0 as P. pose proof tan_one as [T1 T2].
  replace (PI / 90) with (2 * (PI / 180)) by field.
  assert (C1 : 0 < cos (PI / 180)) by (apply cos_gt_0; lra). assert (C2 : 0 < cos (2 * (PI / 180))) by (apply cos_gt_0; lra).
  rewrite tan_2a; [|lra|lra|nra]. set (x := tan (PI / 180)) in *. assert (D : 0 < 1 - x * x) by nra.
  apply (Rmult_le_reg_r (1 - x * x)); [exact D|]. replace (2 * x / (1 - x * x) * (1 - x * x)) with (2 * x) by (field; lra). nra.
Qed.

Lemma in_fovea_iff f D st : in_fovea f D st = true <->
  Rabs (fst (place_of st) - fst f) < D /\ Rabs (snd (place_of st) - snd f) < D.
Proof.
  unfold in_fovea. cbv zeta.
  destruct (Rlt_dec (fst f - D) (fst (place_of st))), (Rlt_dec (fst (place_of st)) (fst f + D)),
    (Rlt_dec (snd f - D) (snd (place_of st))), (Rlt_dec (snd (place_of st)) (snd f + D)); cbn [andb];
  split; intros H; try discriminate; try reflexivity;
  try (match type of H with _ /\ _ => idtac end; destruct H as [H1 H2]; apply Rabs_def2 in H1; apply Rabs_def2 in H2; lra);
  (split; apply Rabs_def1; lra).
Qed.

Lemma apart_bounds f p : Rabs (fst p - fst f) <= pixels_apart f p /\ Rabs (snd p - snd f) <= pixels_apart f p /\
  forall D, Rabs (fst p - fst f) < D -> Rabs (snd p - snd f) < D -> pixels_apart f p < 2 * D.
Proof.
  unfold pixels_apart. set (a := fst p - fst f). set (b := snd p - snd f).
  assert (Sa : a * a = Rabs a * Rabs a) by (rewrite <- Rabs_mult; symmetry; apply Rabs_pos_eq; nra).
  assert (Sb : b * b = Rabs b * Rabs b) by (rewrite <- Rabs_mult; symmetry; apply Rabs_pos_eq; nra).
  pose proof (Rabs_pos a) as Pa. pose proof (Rabs_pos b) as Pb. rewrite Sa, Sb.
  set (x := Rabs a) in *. set (y := Rabs b) in *. clearbody x y. clear Sa Sb. split; [|split].
  - rewrite <- (sqrt_square x Pa) at 1. apply sqrt_le_1; nra.
  - rewrite <- (sqrt_square y Pb) at 1. apply sqrt_le_1; nra.
  - intros D Hx Hy. rewrite <- (sqrt_square (2 * D)) by lra. apply sqrt_lt_1; nra.
Qed.

Lemma fovea_angle f d st : visible d -> in_fovea f (angle_pixels 1 d) st = true -> visual_angle f (place_of st) d < PI / 90.
Proof.
  intros V H. apply in_fovea_iff in H. destruct H as [H1 H2]. destruct (apart_bounds f (place_of st)) as (_ & _ & H). specialize (H _ H1 H2).
  rewrite (angle_atan _ _ _ V). pose proof (px_pos _ V) as P. destruct V as (_ & _ & V). pose proof PI_RGT_0 as PP.
  rewrite <- (atan_tan (PI / 90)) by lra. apply atan_increasing.
  eapply Rlt_le_trans; [apply (ratio_mono _ _ _ _ P V H)|]. unfold angle_pixels.
  replace (1 * PI / 180) with (PI / 180) by field.
  replace (2 * (px_per_cm d * tan (PI / 180) * dview d) / px_per_cm d / dview d) with (2 * tan (PI / 180)) by (field; lra). exact tan_two.
Qed.
Lemma angle_fovea f d st : visible d -> visual_angle f (place_of st) d < PI / 180 -> in_fovea f (angle_pixels 1 d) st = true.
Proof.
  intros V H. apply in_fovea_iff. destruct (apart_bounds f (place_of st)) as (H1 & H2 & _).
  assert (L : pixels_apart f (place_of st) < angle_pixels 1 d); [|lra].
  rewrite (angle_atan _ _ _ V) in H. pose proof (px_pos _ V) as P. destruct V as (_ & _ & V).
  set (x := pixels_apart f (place_of st)) in *. assert (T : x / px_per_cm d / dview d < tan (PI / 180)).
  { rewrite <- (tan_atan (x / px_per_cm d / dview d)). pose proof (atan_bound (x / px_per_cm d / dview d)). pose proof PI_RGT_0. apply tan_increasing; lra. }
  unfold angle_pixels. replace (1 * PI / 180) with (PI / 180) by field.
  replace x with (x / px_per_cm d / dview d * (px_per_cm d * dview d)) by (field; lra).
  replace (px_per_cm d * tan (PI / 180) * dview d) with (tan (PI / 180) * (px_per_cm d * dview d)) by ring.
  apply Rmult_lt_compat_r; [nra|exact T].
Qed.

Lemma buffered_spec m d f noise shown l : forall acc r, buffered m d f noise shown acc l = Ok r ->
  (r = acc /\ forall st, In st l -> in_fovea f (angle_pixels 1 d) st = true -> is_new shown st = Ok false) \/
  exists l1 st l2, l = (l1 ++ st :: l2)%list /\ r = Some (st, buffering_time m d f noise st) /\ in_fovea f (angle_pixels 1 d) st = true /\
    is_new shown st = Ok true /\ forall st', In st' l2 -> in_fovea f (angle_pixels 1 d) st' = true -> is_new shown st' = Ok false.
Proof.
  induction l as [|st l IH]; intros acc r H; cbn [buffered] in H.
  - injection H as <-. left. split; [reflexivity|intros st []].
  - destruct (in_fovea f (angle_pixels 1 d) st) eqn:F.
    + destruct (is_new shown st) as [b|e] eqn:N; [|discriminate]. cbn [rbind] in H. destruct (IH _ _ H) as [[-> A]|(l1 & s1 & l2 & -> & -> & A)].
      * destruct b.
        -- right. exists [], st, l. split; [reflexivity|]. split; [reflexivity|]. split; [exact F|]. split; [exact N|exact A].
        -- left. split; [reflexivity|]. intros s1 [<-|I] Hs; [exact N|exact (A s1 I Hs)].
      * right. exists (st :: l1), s1, l2. split; [reflexivity|]. split; [reflexivity|]. exact A.
    + destruct (IH _ _ H) as [[-> A]|(l1 & s1 & l2 & -> & -> & A)].
      * left. split; [reflexivity|]. intros s1 [<-|I] Hs; [congruence|exact (A s1 I Hs)].
      * right. exists (st :: l1), s1, l2. split; [reflexivity|]. split; [reflexivity|]. exact A.
Qed.

(** An object in the centre of sight that is not yet in the buffer: what is buffered lies within two degrees
    of the focus, and nothing within one degree is left out unless something else is taken. *)
Theorem buffering m d f noise shown l r : visible d -> buffered m d f noise shown None l = Ok r ->
  match r with
  | Some (st, x) => In st l /\ visual_angle f (place_of st) d < PI / 90 /\ (forall v, shown = Some v -> sttext st <> Some v) /\
      x = encoding_time (2 * visual_angle f (place_of st) d) (escale m) (eangle m) noise (option_map Q2R (stdelay st))
  | None => forall st, In st l -> visual_angle f (place_of st) d < PI / 180 -> exists v, shown = Some v /\ sttext st = Some v
  end.
Proof.
  intros V H. destruct (buffered_spec _ _ _ _ _ _ _ _ H) as [[-> A]|(l1 & st & l2 & -> & -> & F & N & A)].
  - intros st I L. specialize (A st I (angle_fovea _ _ _ V L)). unfold is_new in A. destruct shown as [v|]; [|discriminate].
    destruct (sttext st) as [y|]; [|discriminate]. injection A as A. apply Bool.negb_false_iff, String.eqb_eq in A. subst y. eauto.
  - split; [apply in_elt|]. split; [apply fovea_angle; assumption|]. split; [|reflexivity].
    intros v -> Y. unfold is_new in N. rewrite Y, String.eqb_refl in N. discriminate.
Qed.

(** What is buffered can lie more than one degree away: the fovea is a square. *)
Definition corner_screen : display := MkDisp (1, 1) (1, 1) (12 / 10 / tan (PI / 180)).
Definition corner_stim : stimulus := MkStim (Some "A"%string) 1 1 None None None None [].
Lemma corner_visible : visible corner_screen.
Proof. pose proof tan_one. unfold visible, corner_screen. cbn. repeat split; try lra. apply Rdiv_lt_0_compat; lra. Qed.
Lemma corner_pixels : angle_pixels 1 corner_screen = 12 / 10.
Proof. pose proof tan_one. unfold angle_pixels, px_per_cm, corner_screen. cbn. replace (1 * PI / 180) with (PI / 180) by field. field. lra. Qed.
Lemma corner_place : place_of corner_stim = (1, 1).
Proof. unfold place_of, corner_stim. cbn. rewrite RMicromega.Q2R_1. reflexivity. Qed.
Theorem buffering_corner m noise : exists x, buffered m corner_screen (0, 0) noise None None [corner_stim] = Ok (Some (corner_stim, x)) /\
  PI / 180 < visual_angle (0, 0) (place_of corner_stim) corner_screen.
Proof.
  eexists. split.
  - cbn [buffered]. assert (F : in_fovea (0, 0) (angle_pixels 1 corner_screen) corner_stim = true).
    { apply in_fovea_iff. rewrite corner_pixels, corner_place. cbn. rewrite Rabs_pos_eq; lra. }
    rewrite F. cbn [is_new rbind]. reflexivity.
  - rewrite corner_place, (angle_atan _ _ _ corner_visible). pose proof PI_RGT_0 as PP. pose proof tan_one as [T _].
    rewrite <- (atan_tan (PI / 180)) at 1 by lra. apply atan_increasing. unfold pixels_apart, px_per_cm, corner_screen. cbn [fst snd dsize dscreen dview].
    set (t := tan (PI / 180)) in *.
    assert (S2 : 12 / 10 < sqrt ((1 - 0) * (1 - 0) + (1 - 0) * (1 - 0))).
    { rewrite <- (sqrt_square (12 / 10)) by lra. apply sqrt_lt_1; lra. }
    set (r := sqrt _) in *. replace (r / (1 / 1) / (12 / 10 / t)) with (r * t / (12 / 10)) by (field; lra).
    apply (Rmult_lt_reg_r (12 / 10)); [lra|]. replace (r * t / (12 / 10) * (12 / 10)) with (r * t) by field. nra.
Qed.
