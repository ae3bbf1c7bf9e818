(** Property theorems about shifts of visual attention: C91 to C98. *)
From Coq Require Import Reals Qreals Lra Sorted.
From Verif Require Import Base Chunks Buffers BufferFacts Productions ProdSpec SimSpec SimWitness ShiftFacts SafeSpec Emma EmmaFacts EmmaWitness.
Local Open Scope string_scope.
Local Open Scope list_scope.

(** ** C91 *)

(** The phases of a shift.  The eyes start to move when the preparation is over, or when a movement going on is.
    The object is seen when its encoding time is over; if the eyes arrive before that, what is left of the encoding
    is redone with the time that the encoding takes from the new position. *)
Theorem C91_phases : forall R O name i, sane_times O -> forall c bs t s tr g s' tr',
  of_kind (sw s) i KVisual -> runs R (start O MRetrieve name i c bs t) s tr (FCont g) -> runs R g s' tr' FDone ->
  exists u w ch enc prep exe site, oshift O u i c bs = (w, Ok (ch, (enc, prep, exe), site)) /\
  let t1 := ((if Qle_bool (mvt_of s' i) (t + prep) then t + prep else mvt_of s' i) + exe)%Q in
  exists early mid late,
    events tr = MkEv (roundtime t) name (WText "PREPARATION TO SHIFT VISUAL ATTENTION STARTED") :: early ++
                MkEv (roundtime (t + prep)) name (WText "PREPARATION TO SHIFT VISUAL ATTENTION COMPLETED") :: mid /\
    events tr' = MkEv (roundtime t1) name WUnknown :: MkEv (roundtime t1) name (WText "SHIFT COMPLETE") :: late /\
    ((enc <= prep)%Q -> early = seen name (t + enc) /\ mid = [] /\ late = []) /\
    ((prep < enc <= prep + exe)%Q -> early = [] /\ mid = seen name (t + enc) /\ late = []) /\
    ((prep + exe < enc)%Q -> early = [] /\ mid = [] /\
       exists u2 w2 ch2 enc2 prep2 exe2 site2, oshift O u2 i (CChunk ch) bs = (w2, Ok (ch2, (enc2, prep2, exe2), site2)) /\
         late = seen name (t1 + (1 - (prep + exe) / enc) * enc2)).
Proof. exact shift_phases. Qed.
Print Assumptions C91_phases.

(** In the order of their times, and the object is seen exactly once. *)
Theorem C91_seen_once : forall R O name i, sane_times O -> forall c bs t s tr g s' tr',
  of_kind (sw s) i KVisual -> runs R (start O MRetrieve name i c bs t) s tr (FCont g) -> runs R g s' tr' FDone ->
  Sorted Z.le (map etime (events tr ++ events tr')) /\ exists e, filter is_seen (events tr ++ events tr') = [e].
Proof. exact shift_ordered. Qed.
Print Assumptions C91_seen_once.

Example C91_example : sane_times vx_oracle /\ of_kind (sw (vx_state [])) 2 KVisual /\
  (exists tr g tr', runs eq (start vx_oracle MRetrieve "visual" 2 (CChunk (vx_seen "fast")) nobind 1) (vx_state []) tr (FCont g) /\
    runs eq g (vx_state []) tr' FDone /\ map etime (events tr ++ events tr') = [10000; 10100; 10100; 10200; 10300; 10300]%Z) /\
  exists tr g tr', runs eq (start vx_oracle MRetrieve "visual" 2 (CChunk (vx_seen "slow")) nobind 1) (vx_state []) tr (FCont g) /\
    runs eq g (vx_state []) tr' FDone /\ map etime (events tr ++ events tr') = [10000; 10200; 10300; 10300; 13000; 13000]%Z.
Proof. split; [exact vx_sane|]. split; [eexists; split; reflexivity|]. split; [exact vx_runs|exact vx_runs_late]. Qed.

(** ** C92 *)

(** [mvt_of]: when the movement that is going on ends. *)
Theorem C92_no_later : forall R O name i, sane_times O -> forall c bs t s tr g s' tr',
  of_kind (sw s) i KVisual -> runs R (start O MRetrieve name i c bs t) s tr (FCont g) -> runs R g s' tr' FDone ->
  exists u w ch enc prep exe site, oshift O u i c bs = (w, Ok (ch, (enc, prep, exe), site)) /\
    ((mvt_of s' i <= t + prep)%Q ->
     (forall u2 w2 ch2 enc2 prep2 exe2 site2, oshift O u2 i (CChunk ch) bs = (w2, Ok (ch2, (enc2, prep2, exe2), site2)) -> (enc2 <= enc)%Q) ->
     forall e, In e (events tr ++ events tr') -> is_seen e = true -> (roundtime t <= etime e <= roundtime (t + enc))%Z).
Proof. exact shift_no_later. Qed.
Print Assumptions C92_no_later.

(** The second hypothesis holds of EMMA: encoding takes least time when the eyes rest on the object. *)
Theorem C92_look_again : forall m d f p vd, visible d -> (0 <= escale m)%R -> (0 <= eangle m)%R -> (forall v, vd = Some v -> (0 <= v)%R) ->
  (fst (fst (shift_times m d p p vd None None None)) <= fst (fst (shift_times m d f p vd None None None)))%R.
Proof. exact look_again. Qed.
Print Assumptions C92_look_again.

Example C92_example : (mvt_of (vx_state []) 2 <= 1 + (2 # 100))%Q /\
  exists tr g tr', runs eq (start vx_oracle MRetrieve "visual" 2 (CChunk (vx_seen "slow")) nobind 1) (vx_state []) tr (FCont g) /\
    runs eq g (vx_state []) tr' FDone /\ map etime (events tr ++ events tr') = [10000; 10200; 10300; 10300; 13000; 13000]%Z.
Proof. split; [exact vx_still|exact vx_runs_late]. Qed.

(** ** C93 *)
Local Open Scope R_scope.

Theorem C93_symmetric : forall f p d, visual_angle f p d = visual_angle p f d.
Proof. exact angle_symmetric. Qed.
Print Assumptions C93_symmetric.

Theorem C93_range : forall f p d, visible d -> 0 <= visual_angle f p d < PI / 2 /\ (visual_angle f p d = 0 <-> f = p).
Proof. exact angle_range. Qed.
Print Assumptions C93_range.

Theorem C93_grows_with_distance : forall f p g q d, visible d -> pixels_apart f p < pixels_apart g q -> visual_angle f p d < visual_angle g q d.
Proof. exact angle_grows. Qed.
Print Assumptions C93_grows_with_distance.

Theorem C93_shrinks_from_afar : forall f p d v, visible d -> dview d < v -> f <> p ->
  visual_angle f p (MkDisp (dsize d) (dscreen d) v) < visual_angle f p d.
Proof. exact angle_shrinks. Qed.
Print Assumptions C93_shrinks_from_afar.

Example C93_example : visible usual_screen /\ visual_angle (0, 0) (640, 0) usual_screen = PI / 4 /\ pixels_apart (0, 0) (320, 0) < pixels_apart (0, 0) (640, 0).
Proof. split; [exact usual_visible|]. split; [exact ew_angle|]. unfold pixels_apart. cbn [fst snd]. apply sqrt_lt_1; lra. Qed.

(** ** C94 *)

Theorem C94_grows : forall K k v a b, 0 <= K * v -> 0 <= k -> a <= b ->
  0 <= encoding_time a K k None (Some v) <= encoding_time b K k None (Some v) /\
  (0 < K * v -> 0 < k -> a < b -> encoding_time a K k None (Some v) < encoding_time b K k None (Some v)).
Proof. exact encoding_grows. Qed.
Print Assumptions C94_grows.

Example C94_example : 0 < 1 / 100 * 10 /\ 0 < 1 /\ visual_angle (0, 0) (0, 0) usual_screen < visual_angle (0, 0) (640, 0) usual_screen.
Proof.
  split; [lra|]. split; [lra|]. rewrite ew_angle, (proj2 (proj2 (angle_range (0, 0) (0, 0) usual_screen usual_visible)) eq_refl).
  pose proof PI_RGT_0. lra.
Qed.

(** ** C95 *)

Theorem C95_execution : forall f p d, visible d -> 7 / 100 <= execution_time (visual_angle f p d) None < 25 / 100.
Proof. exact execution_range. Qed.
Print Assumptions C95_execution.

Theorem C95_farther_takes_longer : forall f p g q d, visible d -> pixels_apart f p < pixels_apart g q ->
  execution_time (visual_angle f p d) None < execution_time (visual_angle g q d) None.
Proof. exact execution_grows. Qed.
Print Assumptions C95_farther_takes_longer.

Theorem C95_arrival : forall m d f p vd, visible d ->
  let '(enc, prep, exe) := shift_times m d f p vd None None None in
  85 / 1000 <= prep + exe < 385 / 1000 /\ (eon m = true -> prep = 135 / 1000 /\ 205 / 1000 <= prep + exe).
Proof. exact arrival. Qed.
Print Assumptions C95_arrival.

Theorem C95_noise : forall m d f p vd z1 z2 z3, visible d -> 0 <= escale m -> (forall v, vd = Some v -> 0 <= v) -> 0 < z1 -> 0 < z2 -> 0 < z3 ->
  let '(enc, prep, exe) := shift_times m d f p vd (Some z1) (Some z2) (Some z3) in 0 <= enc /\ 0 <= prep /\ 0 < exe.
Proof. exact noisy_times. Qed.
Print Assumptions C95_noise.

(** So the hypothesis of C90 about eye movements holds without noise. *)
Theorem C95_slow_eyes : forall O, follows_emma O -> slow_eyes O.
Proof. exact emma_slow. Qed.
Print Assumptions C95_slow_eyes.

Example C95_example : visible usual_screen /\ follows_emma ew_oracle /\ execution_time (visual_angle (0, 0) (640, 0) usual_screen) None = 16 / 100.
Proof.
  split; [exact usual_visible|]. split; [exact ew_follows|]. rewrite ew_angle. unfold execution_time. replace (180 * (PI / 4) / PI) with 45 by (field; apply PI_neq0). lra.
Qed.

(** ** C96 *)

(** [shown]: what the chunk in the buffer says, if there is one. *)
Theorem C96_centre_of_sight : forall m d f noise shown l r, visible d -> buffered m d f noise shown None l = Ok r ->
  match r with
  | Some (st, x) => In st l /\ visual_angle f (place_of st) d < PI / 90 /\ (forall v, shown = Some v -> sttext st <> Some v) /\
      x = encoding_time (2 * visual_angle f (place_of st) d) (escale m) (eangle m) noise (option_map Q2R (stdelay st))
  | None => forall st, In st l -> visual_angle f (place_of st) d < PI / 180 -> exists v, shown = Some v /\ sttext st = Some v
  end.
Proof. exact buffering. Qed.
Print Assumptions C96_centre_of_sight.

(** One degree is no limit: what is looked at is a square. *)
Theorem C96_beyond_one_degree : exists d f st, visible d /\ (forall m noise, exists x, buffered m d f noise None None [st] = Ok (Some (st, x))) /\
  PI / 180 < visual_angle f (place_of st) d.
Proof.
  exists corner_screen, (0, 0), corner_stim. split; [exact corner_visible|]. split.
  - intros m noise. destruct (buffering_corner m noise) as (x & H & _). exists x. exact H.
  - destruct (buffering_corner (MkEmma true 0 0) None) as (x & _ & H). exact H.
Qed.
Print Assumptions C96_beyond_one_degree.

Example C96_example : visible corner_screen /\ exists x, buffered (MkEmma true 0 0) corner_screen (0, 0) None None None [corner_stim] = Ok (Some (corner_stim, x)).
Proof. split; [exact corner_visible|]. destruct (buffering_corner (MkEmma true 0 0) None) as (x & H & _). exists x. exact H. Qed.

(** ** C97 *)

(** Full statement: without the hypothesis that widths and heights have the same scale (see the refutation). *)
Theorem C97_seen_partial : forall f p d, visible d -> height_px_per_cm d = px_per_cm d -> visual_angle f p d = seen_angle f p d.
Proof. exact angle_seen. Qed.
Print Assumptions C97_seen_partial.

(** The default environment, looking down from the middle to the lower edge. *)
Theorem C97_seen_refuted : visual_angle (320, 180) (320, 360) usual_screen <> seen_angle (320, 180) (320, 360) usual_screen.
Proof. exact angle_not_seen. Qed.
Print Assumptions C97_seen_refuted.

Example C97_example : visible ew_square /\ height_px_per_cm ew_square = px_per_cm ew_square.
Proof. exact ew_squares. Qed.

(** ** C98 *)

(** The documented formula has degrees.  It never holds but for objects in the focus. *)
Theorem C98_degrees_refuted : forall K k v a, K * v <> 0 -> k <> 0 -> 0 < a ->
  encoding_time a K k None (Some v) <> K * v * exp (k * degrees a).
Proof. exact encoding_not_degrees. Qed.
Print Assumptions C98_degrees_refuted.

(** Full statement: with [k] in place of [k * 180 / PI]. *)
Theorem C98_degrees_partial : forall K k v a, encoding_time a K (k * 180 / PI) None (Some v) = K * v * exp (k * degrees a).
Proof. exact encoding_rescaled. Qed.
Print Assumptions C98_degrees_partial.

Example C98_example : visual_angle (0, 0) (640, 0) usual_screen = PI / 4 /\ degrees (PI / 4) = 45 /\ 1 / 100 * 10 <> 0.
Proof. split; [exact ew_angle|]. split; [unfold degrees; field; apply PI_neq0|lra]. Qed.
