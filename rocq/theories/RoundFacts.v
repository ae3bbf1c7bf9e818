(** Proofs about rounding of times (C34). *)
From Verif Require Import Base.
From Coq Require Import Qabs Lqa.
Local Open Scope Z_scope.

(** The rounded number is a nearest integer, and even if there are two. *)
Lemma round_spec x : let z := py_round_half_even x in let d := Z.pos (Qden x) in
  2 * Z.abs (z * d - Qnum x) <= d /\ (2 * Z.abs (z * d - Qnum x) = d -> Z.even z = true).
Proof.
  unfold py_round_half_even. destruct x as [n d]. cbn [Qnum Qden].
  pose proof (Z.div_mod n (Z.pos d) ltac:(lia)) as E. pose proof (Z.mod_pos_bound n (Z.pos d) ltac:(lia)) as B.
  set (q := n / Z.pos d) in *. set (r := n mod Z.pos d) in *.
  destruct (Z.compare_spec (2 * r) (Z.pos d)) as [C|C|C].
  - destruct (Z.even q) eqn:Ev.
    + split; [lia|auto].
    + split; [lia|]. intros _. rewrite Z.add_1_r, Z.even_succ, <- Z.negb_even, Ev. reflexivity.
  - split; [lia|]. intros H. exfalso. lia.
  - split; [lia|]. intros H. exfalso. lia.
Qed.

Lemma round_mono x y : (x <= y)%Q -> py_round_half_even x <= py_round_half_even y.
Proof.
  intros H. pose proof (round_spec x) as [X1 X2]. pose proof (round_spec y) as [Y1 Y2].
  cbv zeta in *. destruct (Z.le_gt_cases (py_round_half_even x) (py_round_half_even y)) as [|C]; [assumption|exfalso].
  set (zx := py_round_half_even x) in *. set (zy := py_round_half_even y) in *.
  unfold Qle in H. destruct x as [n d], y as [m e]. cbn [Qnum Qden] in *.
  set (D := Z.pos d) in *. set (E := Z.pos e) in *.
  assert (HD : 0 < D) by (unfold D; lia). assert (HE : 0 < E) by (unfold E; lia).
  (* zx*D - n <= D/2 and m - zy*E <= E/2 *)
  assert (A1 : 2 * (zx * D - n) <= D) by lia.
  assert (A2 : 2 * (m - zy * E) <= E) by lia.
  assert (A3 : (2 * zx - 1) * D <= 2 * n) by lia.
  assert (A4 : 2 * m <= (2 * zy + 1) * E) by lia.
  assert (A5 : (2 * zx - 1) * D * E <= (2 * zy + 1) * E * D) by nia.
  assert (A6 : 2 * zx - 1 <= 2 * zy + 1) by nia.
  assert (Ez : zx = zy + 1) by lia.
  rewrite Ez in *.
  assert (B1 : 2 * n * E = (2 * zy + 1) * D * E) by nia.
  assert (B2 : 2 * m * D = (2 * zy + 1) * D * E) by nia.
  assert (B3 : 2 * n = (2 * zy + 1) * D) by nia.
  assert (B4 : 2 * m = (2 * zy + 1) * E) by nia.
  assert (Vx : Z.even (zy + 1) = true) by (apply X2; lia).
  assert (Vy : Z.even zy = true) by (apply Y2; lia).
  rewrite Z.add_1_r, Z.even_succ, <- Z.negb_even, Vy in Vx. discriminate.
Qed.

Theorem roundtime_mono x y : (x <= y)%Q -> roundtime x <= roundtime y.
Proof.
  intros H. apply round_mono. apply Qmult_le_compat_r; [exact H|discriminate].
Qed.

(** A number of ticks as a time in seconds. *)
Definition seconds (t : Z) : Q := (t # 10000)%Q.

Theorem roundtime_seconds t : roundtime (seconds t) = t.
Proof.
  unfold roundtime, seconds. pose proof (round_spec ((t # 10000) * (10000 # 1))%Q) as [A _]. cbv zeta in A.
  set (z := py_round_half_even _) in *. clearbody z. unfold Qmult in A. cbn [Qnum Qden] in A. lia.
Qed.

Theorem roundtime_close x : (Qabs (seconds (roundtime x) - x) <= 1 # 20000)%Q.
Proof.
  unfold roundtime, seconds. pose proof (round_spec (x * (10000 # 1))%Q) as [A _]. cbv zeta in A.
  set (z := py_round_half_even _) in *. clearbody z. destruct x as [n d]. unfold Qmult in A. cbn [Qnum Qden] in A.
  rewrite Pos.mul_1_r in A. apply Qabs_Qle_condition. unfold Qle, Qminus, Qplus, Qopp. cbn [Qnum Qden]. lia.
Qed.

Theorem roundtime_ext x y : (x == y)%Q -> roundtime x = roundtime y.
Proof.
  intros H. apply Z.le_antisymm; apply roundtime_mono; rewrite H; apply Qle_refl.
Qed.

(** A time exactly half-way between two ticks goes to the even one. *)
Theorem roundtime_halfway x : (Qabs (seconds (roundtime x) - x) == 1 # 20000)%Q -> Z.even (roundtime x) = true.
Proof.
  unfold roundtime. pose proof (round_spec (x * (10000 # 1))%Q) as [_ A]. cbv zeta in A.
  set (z := py_round_half_even _) in *. clearbody z. intros H. apply A. clear A.
  destruct x as [n d]. unfold Qmult, seconds in *. cbn [Qnum Qden] in *. rewrite Pos.mul_1_r.
  unfold Qabs, Qminus, Qplus, Qopp, Qeq in H. cbn [Qnum Qden] in H.
  rewrite Pos2Z.inj_mul in H. nia.
Qed.
