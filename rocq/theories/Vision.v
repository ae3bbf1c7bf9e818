(** Visual search: model of VisualLocation.find, VisualLocation.automatic_search, Visual.shift and
    chunk_from_stimulus (/repo/pyactr/vision.py:90-232, 319-359, 374-415). *)
From Coq Require Import DecimalString DecimalZ Qabs.
From Verif Require Export Base Chunks Buffers Productions.
Local Open Scope string_scope.

(** ** Numbers and text *)

(** str() of an integer. *)
Definition int_str (z : Z) : string := NilZero.string_of_int (Z.to_int z).
(** int() of a text: digits after an optional sign; blanks and underscores are not modelled. *)
Definition int_text (s : string) : option Z :=
  match s with
  | String "+"%char r => match r with
                         | String "-"%char _ => None
                         | _ => match NilZero.int_of_string r with Some i => Some (Z.of_int i) | None => None end
                         end
  | _ => match NilZero.int_of_string s with Some i => Some (Z.of_int i) | None => None end
  end.
(** int() of a number: towards zero. *)
Definition trunc (q : Q) : Z := Z.quot (Qnum q) (Z.pos (Qden q)).
Definition position (st : stimulus) : Z * Z := (trunc (stx st), trunc (sty st)).

(** ** Chunks from stimuli *)

(** vision.py:374-415, chunk_from_stimulus(stimulus, "visual_location", position).  The list
    externally_visible is taken to name no control key but 'text'. *)
Definition location_args (st : stimulus) (pos : bool) : dict rawval :=
  let visible := match stvisible st with Some l => l | None => [] end in
  let feats := (match sttext st with Some t => if smem "text" visible then [("text", RStr t)] else [] | None => [] end ++
                map (fun p => (fst p, RStr (snd p))) (filter (fun p => smem (fst p) visible) (stfeats st)))%list in
  if pos then dset (dset feats "screen_x" (RStr (int_str (fst (position st))))) "screen_y" (RStr (int_str (snd (position st))))
  else feats.
Definition location_chunk (r : registry) (st : stimulus) (pos : bool) : res (registry * chunk) :=
  mk_chunk r (match stloctype st with Some t => t | None => "_visuallocation" end) (location_args st pos).

(** ** Search *)

(** [self.recent] contains the stimulus (== on dictionaries). *)
Definition stim_in (st : stimulus) (l : list stimulus) : bool := existsb (fun s => stim_eqb s st) l.

(** vision.py:116-125.  The values of extra tests are texts. *)
Definition test_skips (extra : dict string) (finst : nat) (recent : list stimulus) (st : stimulus) : bool :=
  match dget extra "attended" with
  | None => false
  | Some v => negb (Nat.eqb finst 0) && (if String.eqb v "False" then stim_in st recent else negb (stim_in st recent))
  end.

(** vision.py:128-129.  An empty slot asks for nothing; a stimulus without text raises KeyError. *)
Definition text_skips (slot : option slotval) (st : stimulus) : res bool :=
  match slot with
  | None => Err EAttr
  | Some None => Ok false
  | Some (Some w) => match sttext st with
                     | None => Err EKey
                     | Some t => Ok (negb (val_eqb (vvals w) (VStr t)))
                     end
  end.

(** The text in the slot screen_x or screen_y, if any.  Everything else raises TypeError, IndexError
    or AttributeError in the tests below, which are passed over, or equals no text. *)
Definition slot_text (slot : option slotval) : option string :=
  match slot with Some (Some w) => match vvals w with VStr x => Some x | _ => None end | _ => None end.

(** vision.py:134-142. *)
Definition abs_skips (x : option string) (p : Z) : bool :=
  match x with
  | Some x => match int_text x with Some n => negb (Z.eqb n p) | None => false end
  | None => false
  end.
(** vision.py:144-158: ValueError is not passed over. *)
Definition rel_skips (x : option string) (p : Z) : res bool :=
  match x with
  | Some (String "<"%char r) => match int_text r with Some n => Ok (Z.leb n p) | None => Err EValue end
  | Some (String ">"%char r) => match int_text r with Some n => Ok (Z.geb n p) | None => Err EValue end
  | _ => Ok false
  end.
(** vision.py:161-175. *)
Definition sup_skips (x : option string) (cur : option Z) (p : Z) : bool :=
  match x, cur with
  | Some "lowest", Some c => Z.gtb p c
  | Some "highest", Some c => Z.ltb p c
  | _, _ => false
  end.

(** Squared distance; math.sqrt is monotone. *)
Definition dist2 (f : Q * Q) (p : Z * Z) : Q :=
  ((fst f - inject_Z (fst p)) * (fst f - inject_Z (fst p)) + (snd f - inject_Z (snd p)) * (snd f - inject_Z (snd p)))%Q.
Definition gtQ (a b : Q) : bool := negb (Qle_bool a b).
Definition is_text (x : option string) (s : string) : bool := match x with Some y => String.eqb y s | None => false end.

(** vision.py:178-182.  If the slot screen_x is empty, AttributeError is raised before screen_y is
    looked at, and passed over. *)
Definition closest_skips (sx : option slotval) (x y : option string) (f : Q * Q) (cur : option (Z * Z)) (p : Z * Z) : bool :=
  match sx, cur with
  | Some (Some _), Some c => (is_text x "closest" || is_text y "closest") && gtQ (dist2 f p) (dist2 f c)
  | _, _ => false
  end.
(** vision.py:185-195. *)
Definition oneway_skips (x : option string) (f : Q) (cur : option Z) (p : Z) : bool :=
  match cur with
  | Some c => is_text x "onewayclosest" && gtQ (Qabs (f - inject_Z p)) (Qabs (f - inject_Z c))
  | None => false
  end.

(** What the loop has so far: found with its position (also in current_x, current_y and the
    three distances, which are infinite before), found_stim. *)
Record found := MkFound { fchunk : option (chunk * (Z * Z)); fstim : option stimulus }.

(** vision.py:113-206: one round of the loop. *)
Definition look (f : Q * Q) (finst : nat) (recent : list stimulus) (search : chunk) (extra : dict string)
  (r : registry) (acc : found) (st : stimulus) : registry * res found :=
  let sx := dget (cslots search) "screen_x" in let sy := dget (cslots search) "screen_y" in
  let x := slot_text sx in let y := slot_text sy in
  let p := position st in
  let cur := match fchunk acc with Some (_, c) => Some c | None => None end in
  let cx := match cur with Some c => Some (fst c) | None => None end in
  let cy := match cur with Some c => Some (snd c) | None => None end in
  if test_skips extra finst recent st then (r, Ok acc) else
  match text_skips (dget (cslots search) "value") st with
  | Err e => (r, Err e)
  | Ok true => (r, Ok acc)
  | Ok false =>
  if abs_skips x (fst p) then (r, Ok acc) else
  if abs_skips y (snd p) then (r, Ok acc) else
  match rel_skips x (fst p) with
  | Err e => (r, Err e)
  | Ok true => (r, Ok acc)
  | Ok false =>
  match rel_skips y (snd p) with
  | Err e => (r, Err e)
  | Ok true => (r, Ok acc)
  | Ok false =>
  if sup_skips x cx (fst p) || sup_skips y cy (snd p) || closest_skips sx x y f cur p ||
     oneway_skips x (fst f) cx (fst p) || oneway_skips y (snd f) cy (snd p) then (r, Ok acc) else
  match location_chunk r st false with
  | Err e => (r, Err e)
  | Ok (r1, visible) =>
      if snd (chunk_le nobind visible search) then
        match location_chunk r1 st true with
        | Err e => (r1, Err e)
        | Ok (r2, c) => (r2, Ok (MkFound (Some (c, p)) (Some st)))
        end
      else (r1, Ok (MkFound (fchunk acc) (Some st)))
  end end end end.

Fixpoint look_all (f : Q * Q) (finst : nat) (recent : list stimulus) (search : chunk) (extra : dict string)
  (r : registry) (acc : found) (l : list stimulus) : registry * res found :=
  match l with
  | [] => (r, Ok acc)
  | st :: l' => match look f finst recent search extra r acc st with
                | (r', Ok acc') => look_all f finst recent search extra r' acc' l'
                | (r', Err e) => (r', Err e)
                end
  end.

(** vision.py:90-208, find.  [f]: environment.current_focus.  [stims]: environment.stimulus, None
    before the first screen (TypeError). *)
Definition visual_find (r : registry) (f : Q * Q) (finst : nat) (recent : list stimulus) (stims : option (list stimulus))
  (o : chunk) (bs : bindings) (extra : dict string) : registry * res (option chunk * option stimulus) :=
  match resolve_slots bs false (removeunused o) with
  | Err e => (r, Err e)
  | Ok args =>
      match mk_chunk r "_visuallocation" args with
      | Err e => (r, Err e)
      | Ok (r1, search) =>
          match stims with
          | None => (r1, Err EType)
          | Some l => match look_all f finst recent search extra r1 (MkFound None None) l with
                      | (r2, Ok acc) => (r2, Ok (match fchunk acc with Some (c, _) => Some c | None => None end, fstim acc))
                      | (r2, Err e) => (r2, Err e)
                      end
          end
      end
  end.

(** ** Automatic search *)

Definition dist2q (f : Q * Q) (st : stimulus) : Q := ((fst f - stx st) * (fst f - stx st) + (snd f - sty st) * (snd f - sty st))%Q.

(** vision.py:210-232, automatic_search. *)
Fixpoint autosearch (r : registry) (f : Q * Q) (recent : list stimulus) (acc : option (chunk * stimulus)) (l : list stimulus) :
    registry * res (option (chunk * stimulus)) :=
  match l with
  | [] => (r, Ok acc)
  | st :: l' =>
      if stim_in st recent then autosearch r f recent acc l' else
      if match acc with Some (_, s) => gtQ (dist2q f st) (dist2q f s) | None => false end then autosearch r f recent acc l' else
      match location_chunk r st true with
      | Ok (r', c) => autosearch r' f recent (Some (c, st)) l'
      | Err e => (r, Err e)
      end
  end.

(** ** Moving attention *)

(** float() of a text.  Only integers are read; other texts raise ValueError here. *)
Definition float_text (s : string) : option Q := match int_text s with Some z => Some (inject_Z z) | None => None end.

(** float(chunk.screen_x.values): a missing slot raises AttributeError, a slot with something but a text TypeError. *)
Definition coord (c : chunk) (n : string) : res Q :=
  match dget (cslots c) n with
  | Some (Some w) => match vvals w with
                     | VStr s => match float_text s with Some q => Ok q | None => Err EValue end
                     | _ => Err EType
                     end
  | _ => Err EAttr
  end.
(** vision.py:337-343: the position that is asked for. *)
Definition target (args : dict rawval) : res (Q * Q) :=
  match dget args "screen_pos" with
  | Some (RVV w) => match vvals w with
                    | VChunk c => x <- coord c "screen_x" ;; y <- coord c "screen_y" ;; Ok (x, y)
                    | _ => Err EAttr
                    end
  | _ => Err EKey
  end.
Definition at_target (p : Q * Q) (st : stimulus) : bool := Qeq_bool (stx st) (fst p) && Qeq_bool (sty st) (snd p).

(** vision.py:374-415, chunk_from_stimulus(stimulus, "visual", position=False), with the command that shift
    adds to the stimulus. *)
Definition visual_chunk (r : registry) (st : stimulus) (cmd : option rawval) : res (registry * chunk) :=
  '(r1, loc) <- location_chunk r st true ;;
  let args := (map (fun p => (fst p, RStr (snd p))) (stfeats st))%list in
  let args := match cmd with Some c => dset args "cmd" c | None => args end in
  mk_chunk r1 (match stvistype st with Some t => t | None => "_visual" end)
    (dset (dset args "screen_pos" (RChunk loc)) "value" (RStr (match sttext st with Some t => t | None => "" end))).

(** vision.py:319-359, shift, without the times and the landing site.  AttributeError and KeyError become
    ACTRError, if there is anything on the screen; without an object at the position the variable stim is
    not bound. *)
Definition shift (r : registry) (stims : option (list stimulus)) (o : chunk) (bs : bindings) : registry * res (chunk * stimulus) :=
  match resolve_slots bs true (removeunused o) with
  | Err e => (r, Err e)
  | Ok args =>
      match stims with
      | None => (r, Err EType)
      | Some [] => (r, Err EUnbound)
      | Some l =>
          match target args with
          | Err EAttr | Err EKey => (r, Err EActr)
          | Err e => (r, Err e)
          | Ok p =>
              match List.find (at_target p) (rev l) with
              | None => (r, Err EUnbound)
              | Some st =>
                  match dget args "cmd" with
                  | None => (r, Err EActr)
                  | Some cmd => match visual_chunk r st (Some cmd) with
                                | Ok (r', c) => (r', Ok (c, st))
                                | Err e => (r, Err e)
                                end
                  end
              end
          end
      end
  end.
