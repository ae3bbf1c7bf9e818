(** Specifications for the environment process. *)
From Verif Require Import Base Chunks Buffers Productions ProdSpec Environment.
Local Open Scope string_scope.
Local Open Scope list_scope.
Local Open Scope nat_scope.

(** Element number [i] of an argument; an argument of length 1 is used for all screens. *)
Definition pick {A} (l : list A) (i : nat) : option A :=
  match l with [x] => Some x | _ => nth_error l i end.

(** Arguments of lengths [a] (stimuli), [b] (triggers), [c] (times) give [n] screens. *)
Definition lengths_fit (a b c n : nat) : Prop :=
  (a = b /\ n = a \/ a = 1 /\ n = b \/ b = 1 /\ n = a) /\ (c = n \/ c = 1).

(** The objects on a screen. *)
Definition shows (x : stim_arg) (objs : list stimulus) : Prop :=
  match x with
  | StMap d => map snd d = map Some objs
  | StOther _ => objs = [MkStim None 320 180 None None None None []]
  end.
(** The keys that end a screen. *)
Definition presses (t : trig_arg) (k : string) : Prop :=
  match t with
  | TrText s => (upper s = "SPACE" /\ k = "SPACE") \/ (upper s <> "SPACE" /\ exists c, In c (chars s) /\ k = upper c)
  | TrList l => exists x, In (Some x) l /\ k = upper x
  | TrBad => False
  end.
Definition good_stim (x : stim_arg) : Prop := exists objs, shows x objs.
Definition good_trig (t : trig_arg) : Prop :=
  match t with TrText _ => True | TrList l => ~ In None l | TrBad => False end.

(** The arguments are accepted and give [n] screens. *)
Definition accepted (stimuli : list stim_arg) (triggers : list trig_arg) (times : list Q) (n : nat) : Prop :=
  lengths_fit (List.length stimuli) (List.length triggers) (List.length times) n /\
  Forall good_stim stimuli /\ (n = 0 \/ Forall good_trig triggers).

(** The sum of the times of the first [i] screens. *)
Fixpoint elapsed (times : list Q) (i : nat) : Q :=
  match i with
  | O => 0%Q
  | S j => (elapsed times j + match pick times j with Some q => q | None => 0 end)%Q
  end.

(** What step number [i] of the environment process does: the first one announces the beginning, the
    following ones show one screen each and announce its end. *)
Definition screen_step (begin : Q) (stimuli : list stim_arg) (triggers : list trig_arg) (times : list Q) (i : nat) (h : hop) : Prop :=
  match hevent h with
  | None => hafter h = hbefore h
  | Some e =>
      etime e = roundtime (begin + elapsed times i) /\ eproc e = ENV /\
      match i with
      | O => ewhat e = WText "STARTING ENVIRONMENT" /\ hafter h = hbefore h
      | S j =>
          ewhat e = WText "PRINTED NEW STIMULUS" /\
          exists x t objs keys, pick stimuli j = Some x /\ pick triggers j = Some t /\
            shows x objs /\ (forall k, In k keys <-> presses t k) /\
            hafter h = set_screen (MkScr (Some objs) keys) (hbefore h)
      end
  end.
