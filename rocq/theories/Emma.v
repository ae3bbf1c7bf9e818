(** Distances on the screen and the times of eye movements (EMMA), over the real numbers: model of
    /repo/pyactr/utilities.py:582-698, of their uses in /repo/pyactr/vision.py:291-305, 348-359 and of the
    choice in /repo/pyactr/productions.py:815-824.  Floating-point numbers are taken to be real numbers.
    np.random.gamma(shape, scale) is [scale] times a sample of the standard gamma distribution: a sample is
    an argument of the functions, None without noise. *)
From Coq Require Import Reals Qreals.
From Verif Require Export Base Chunks Buffers.
Local Open Scope R_scope.

(** environment.py:17, 37-39: size (pixels), simulated_screen_size (cm), viewing_distance (cm). *)
Record display := MkDisp { dsize : R * R; dscreen : R * R; dview : R }.

(** math.atan2. *)
Definition atan2 (y x : R) : R :=
  if Rlt_dec 0 x then atan (y / x)
  else if Rlt_dec x 0 then (if Rle_dec 0 y then atan (y / x) + PI else atan (y / x) - PI)
  else if Rlt_dec 0 y then PI / 2 else if Rlt_dec y 0 then - (PI / 2) else 0.

(** utilities.py:616-629, calculate_pythagorean_distance. *)
Definition pixels_apart (f p : R * R) : R := sqrt ((fst p - fst f) * (fst p - fst f) + (snd p - snd f) * (snd p - snd f)).
(** utilities.py:603, 611.  ZeroDivisionError for sizes 0 is left out. *)
Definition px_per_cm (d : display) : R := fst (dsize d) / fst (dscreen d).

(** utilities.py:582-605, calculate_visual_angle (radians). *)
Definition visual_angle (f p : R * R) (d : display) : R := atan2 (pixels_apart f p / px_per_cm d) (dview d).
(** utilities.py:607-613, calculate_distance. *)
Definition angle_pixels (degrees : R) (d : display) : R := px_per_cm d * tan (degrees * PI / 180) * dview d.

(** utilities.py:649-666, calculate_delay_visual_attention.  [vd]: vis_delay; 0 counts as not given. *)
Definition encoding_time (angle K k : R) (noise : option R) (vd : option R) : R :=
  let delay := match vd with Some v => K * v * exp (k * angle) | None => 0 end in
  match noise with Some z => delay / 9 * z | None => delay end.
(** utilities.py:668-675, calculate_preparation_time. *)
Definition preparation_time (noise : option R) : R := match noise with Some z => 135 / 1000 / 9 * z | None => 135 / 1000 end.
(** utilities.py:677-686, calculate_execution_time. *)
Definition execution_time (angle : R) (noise : option R) : R :=
  let e := 7 / 100 + 2 / 1000 * (180 * angle / PI) in
  match noise with Some z => e / 9 * z | None => e end.
(** utilities.py:689-701, calculate_landing_site.  [noise]: how far the sample of the normal distribution
    lies from its mean, None without noise. *)
Definition landing_site (p : R * R) (angle : R) (noise : option (R * R)) : R * R :=
  match noise with
  | Some z => if Req_EM_T (180 * angle / PI) 0 then p else (fst p + fst z, snd p + snd z)
  | None => p
  end.

Record emma := MkEmma { eon : bool; escale : R; eangle : R }.
(** vision.py:348-359: encoding, preparation and execution time of a shift from [f] to [p]. *)
Definition shift_times (m : emma) (d : display) (f p : R * R) (vd : option R) (n1 n2 n3 : option R) : R * R * R :=
  if eon m then
    let a := visual_angle f p d in
    (encoding_time a (escale m) (eangle m) n1 vd, preparation_time n2, execution_time a n3)
  else (85 / 1000, 0, 85 / 1000).

(** ** Automatic buffering *)

Definition place_of (st : stimulus) : R * R := (Q2R (stx st), Q2R (sty st)).
(** productions.py:822. *)
Definition in_fovea (f : R * R) (D : R) (st : stimulus) : bool :=
  let p := place_of st in
  (if Rlt_dec (fst f - D) (fst p) then true else false) && (if Rlt_dec (fst p) (fst f + D) then true else false) &&
  (if Rlt_dec (snd f - D) (snd p) then true else false) && (if Rlt_dec (snd p) (snd f + D) then true else false).
(** productions.py:823.  [shown]: the slot value of the chunk in the buffer, None if the buffer is empty. *)
Definition is_new (shown : option string) (st : stimulus) : res bool :=
  match shown with
  | None => Ok true
  | Some x => match sttext st with Some y => Ok (negb (String.eqb x y)) | None => Err EKey end
  end.
(** vision.py:301-305. *)
Definition buffering_time (m : emma) (d : display) (f : R * R) (noise : option R) (st : stimulus) : R :=
  encoding_time (2 * visual_angle f (place_of st) d) (escale m) (eangle m) noise (option_map Q2R (stdelay st)).
(** productions.py:815-824: the stimulus and the time of its encoding. *)
Fixpoint buffered (m : emma) (d : display) (f : R * R) (noise : option R) (shown : option string)
    (acc : option (stimulus * R)) (l : list stimulus) : res (option (stimulus * R)) :=
  match l with
  | [] => Ok acc
  | st :: l' =>
      if in_fovea f (angle_pixels 1 d) st then
        b <- is_new shown st ;;
        buffered m d f noise shown (if b then Some (st, buffering_time m d f noise st) else acc) l'
      else buffered m d f noise shown acc l'
  end.
