(** Activation and latency over the real numbers: model of the functions for base-level learning and
    source activation (/repo/pyactr/utilities.py:423-578) and of the subsymbolic branch of
    DecMemBuffer.retrieve (/repo/pyactr/declarative.py:183-259).  Times of presentations are rational
    numbers, as in DecMem.v; floating-point numbers are taken to be real numbers. *)
From Coq Require Import Reals Qreals.
From Verif Require Export Base Chunks DecMem Buffers.
Local Open Scope R_scope.

(** ** Base-level learning *)

(** A value, an unassigned variable B (UnboundLocalError when it is returned), or an exception. *)
Inductive level := BVal (r : R) | BUnset | BRaise (e : exn).

(** times.argmax() and np.max: the first of the latest times. *)
Fixpoint latest (t : Q) (l : list Q) : Q :=
  match l with [] => t | x :: l' => latest (if Qle_bool x t then t else x) l' end.
Fixpoint drop_first (t : Q) (l : list Q) : list Q :=
  match l with [] => [] | x :: l' => if Qeq_bool x t then l' else x :: drop_first t l' end.
(** np.delete(times, times.argmax()) *)
Definition drop_latest (l : list Q) : list Q := match l with [] => [] | t :: l' => drop_first (latest t l') l end.

Definition is_past (now t : Q) : bool := negb (Qle_bool now t).
(** np.sum((current_time - times) ** (-decay)). *)
Definition powers (now : Q) (d : R) (ts : list Q) : R :=
  fold_right (fun t a => Rpower (Q2R now - Q2R t) (- d) + a) 0 ts.

(** utilities.py:431-439.  A time that is not in the past raises RuntimeWarning (0 to a negative power, or a
    negative number to a fractional one: decay is positive and no integer then).  The second attempt is made
    in the handler of the exception, so a warning there is not caught. *)
Definition level_plain (now : Q) (d : R) (ts : list Q) : level :=
  if forallb (is_past now) ts then BVal (ln (powers now d ts))
  else match drop_latest ts with
       | [] => BUnset
       | ts' => if forallb (is_past now) ts' then BVal (ln (powers now d ts')) else BRaise EWarning
       end.
(** utilities.py:440-446.  math.log raises ValueError for numbers that are not positive (1/(1-decay) raises
    ZeroDivisionError for 1), and never RuntimeWarning. *)
Definition level_optimized (now : Q) (d : R) (ts : list Q) : level :=
  match ts with
  | [] => BUnset
  | t :: l =>
      if Rlt_dec d 1 then
        if is_past now (latest t l) then BVal (ln (INR (List.length ts) / (1 - d)) - d * ln (Q2R now - Q2R (latest t l)))
        else BRaise EValue
      else BRaise EValue
  end.

(** utilities.py:423-456, baselevel_learning.  [act]: the activation given by the modeller. *)
Definition baselevel (now : Q) (ts : list Q) (bll : bool) (d : R) (act : option R) (optimized : bool) : level :=
  let b := if bll then match ts with
                       | [] => BUnset
                       | _ => if optimized then level_optimized now d ts else level_plain now d ts
                       end
           else BVal 0 in
  match act with
  | None => b
  | Some a => match b with
              | BVal r => BVal (ln (exp r + exp a))
              | BUnset => BVal a
              | BRaise e => BRaise e
              end
  end.

(** ** Source activation *)

(** utilities.py:470-479, weigh_buffer. *)
Definition weigh (c : chunk) (w : R) (only_chunks : bool) : R :=
  let n := List.length (find_chunks c only_chunks) in
  if Nat.eqb n 0 then 0 else w / INR n.
(** utilities.py:536-537; the counts are those of [strength]. *)
Definition association (s : R) (x : option (nat * nat)) : R :=
  match x with
  | None => 0
  | Some (nj, nij) => s - ln (INR nj / INR (Nat.max 1 nij))
  end.
(** utilities.py:552-557: the sum over the sources of one buffer; the Counters of memory may change. *)
Fixpoint associations (s : R) (restricted only_chunks : bool) (i : chunk) (m : decmem) (l : list (string * value)) : decmem * R :=
  match l with
  | [] => (m, 0)
  | (n, j) :: l' =>
      let (m1, x) := strength m j i (if restricted then Some n else None) only_chunks in
      let (m2, r) := associations s restricted only_chunks i m1 l' in
      (m2, association s x + r)
  end.
(** utilities.py:539-560, spreading_activation.  [srcs]: weights and contents of the buffers that spread
    activation, in order.  The names are those of buffers. *)
Fixpoint spreading (s : R) (restricted only_chunks : bool) (i : chunk) (m : decmem) (srcs : list (R * option chunk)) : decmem * R :=
  match srcs with
  | [] => (m, 0)
  | (w, None) :: l => spreading s restricted only_chunks i m l
  | (w, Some c) :: l =>
      let (m1, x) := associations s restricted only_chunks i m (find_chunks c only_chunks) in
      let (m2, r) := spreading s restricted only_chunks i m1 l in
      (m2, weigh c w only_chunks * x + r)
  end.

(** ** Retrieval *)

(** utilities.py:570-574, retrieval_latency. *)
Definition latency (factor exponent a : R) : R := factor * exp (- a * exponent).

Record sparams := MkSP {
  zbll : bool;                   (* baselevel_learning *)
  zdecay : R;                    (* decay *)
  zopt : bool;                   (* optimized_learning *)
  zthr : R;                      (* retrieval_threshold *)
  zfactor : R; zexp : R;         (* latency_factor, latency_exponent *)
  zstrength : R;                 (* strength_of_association *)
  zpm : bool; zmp : Q;           (* partial_matching, mismatch_penalty *)
  zsims : simtable;
  zrestricted : bool; zonly : bool; (* spreading_activation_restricted, association_only_from_chunks *)
  zsources : list (R * option chunk) (* buffer_spreading_activation, with the contents of the buffers *) }.

Record sstate := MkSS { ssmem : decmem; ssb : bindings; ssmax : option R; ssgot : option (chunk * R) }.

(** declarative.py:213-248 for the chunk number [k].  [given]: activations of the modeller; [noise]: the samples. *)
Definition sub_round (z : sparams) (given : chunk -> option R) (noise : nat -> R) (now : Q) (pat : chunk)
  (k : nat) (c : chunk) (ts : list Q) (st : sstate) : res sstate :=
  let '(b1, apm, ok) :=
    (if zpm z then let (b1, q) := pm_match (zsims z) (zmp z) (ssb st) pat c in (b1, q, true)
     else let (b1, ok) := chunk_le (ssb st) pat c in (b1, 0%Q, ok)) in
  if ok then
    match baselevel now ts (zbll z) (zdecay z) (given c) (zopt z) with
    | BUnset => Ok (MkSS (ssmem st) b1 (ssmax st) (ssgot st))
    | BRaise e => Err e
    | BVal b =>
        let (m', sa) := spreading (zstrength z) (zrestricted z) (zonly z) c (ssmem st) (zsources z) in
        let a := b + sa + Q2R apm + noise k in
        if Rle_dec (zthr z) a then
          if (match ssmax st with None => true | Some mx => if Rlt_dec mx a then true else false end) then
            Ok (MkSS m' b1 (Some a) (Some (c, latency (zfactor z) (zexp z) a)))
          else Ok (MkSS m' b1 (ssmax st) (ssgot st))
        else Ok (MkSS m' b1 (ssmax st) (ssgot st))
    end
  else Ok (MkSS (ssmem st) b1 (ssmax st) (ssgot st)).

Fixpoint sub_rounds (z : sparams) (given : chunk -> option R) (noise : nat -> R) (now : Q) (pat : chunk) (x : recency)
  (finst : nat) (recent : list (option chunk)) (k : nat) (l : list (chunk * list Q)) (st : sstate) : res sstate :=
  match l with
  | [] => Ok st
  | (c, ts) :: l' =>
      st' <- (if skipped x finst recent c then Ok st else sub_round z given noise now pat k c ts st) ;;
      sub_rounds z given noise now pat x finst recent (S k) l' st'
  end.

(** declarative.py:183-259, with subsymbolic processing: the chunk and the time.  A chunk without slots is
    false, so its time is replaced. *)
Definition sub_retrieve (z : sparams) (given : chunk -> option R) (noise : nat -> R) (now : Q) (r : registry) (o : chunk) (bs : bindings)
  (x : recency) (finst : nat) (recent : list (option chunk)) (m : decmem) : res (option chunk * R) :=
  '(_, pat) <- request r o bs ;;
  st <- sub_rounds z given noise now pat x finst recent 0 (dmdata m) (MkSS m nobind None None) ;;
  let fail := latency (zfactor z) (zexp z) (zthr z) in
  Ok match ssgot st with
     | None => (None, fail)
     | Some (c, q) => (Some c, match cslots c with [] => fail | _ => q end)
     end.
