(** Model of production compilation: /repo/pyactr/productions.py:121-448 (class Productions) and
    /repo/pyactr/utilities.py:175-245, 313-398.

    Simplifications.  A rule is its two sides (see Productions.v); the closures returned by
    __rename__, __substitute__ and __collapse__ are the sides they yield, and the in-place changes of
    the yielded dictionaries are not seen by anyone else, because each call of a rule fills them
    anew.  A chunk rebuilt by Chunk(typename, ...) has the slots of the chunk it is made from; that
    is so unless the chunk type has been given other slots since.  Sets are lists in the order of
    insertion.  Contents of the wrong kind (a query that is not a dictionary, ...) raise
    AttributeError. *)
From Coq Require Import DecimalString.
From Verif Require Import Base Chunks DecMem Buffers Productions.
Local Open Scope string_scope.

(** ** Parts of chunks *)

(** utilities.py:182, 189. *)
Definition renamed (x rule : string) : string := x ++ "__rule__" ++ rule.

(** utilities.py:175-196, make_chunkparts_without_varconflicts.  Line 190 looks for the literal
    "=new_name". *)
Definition rename_part (rule : string) (variables : list string) (s : slotval) : res vv :=
  let w := splitting s in
  v <- (match var_truthy (vvar w) with
        | Some x => if smem ("=" ++ renamed x rule) variables then Err EActr else Ok (Some (renamed x rule))
        | None => Ok None
        end) ;;
  nv <- (match vnegvars w with
         | [] => Ok []
         | xs => if smem "=new_name" variables then Err EActr
                 else Ok (sdedup (map (fun x => renamed x rule) xs))
         end) ;;
  Ok (MkVV (vvals w) v (vnegvals w) nv).

(** variable_dict.setdefault(x, x) *)
Definition image (m : dict string) (x : string) : string := match dget m x with Some y => y | None => x end.

(** utilities.py:198-226, make_chunkparts_with_new_vars.  [m]: variable_dict, [v]: val_dict. *)
Definition subst_part (m : dict string) (v : dict value) (s : slotval) : res vv :=
  let w := splitting s in
  vv <- (match var_truthy (vvar w) with
         | None => Ok (vvals w, None)
         | Some x =>
             match dget v x with
             | None => Ok (vvals w, Some (image m x))
             | Some u => if truthy (vvals w) then
                           if val_eqb u (vvals w) then Ok (vvals w, None) else Err EActr
                         else Ok (u, None)
             end
         end) ;;
  let negvals := fold_left (fun acc x => match dget v x with Some u => set_add u acc | None => acc end) (vnegvars w)
                   (fold_left (fun acc u => set_add u acc) (vnegvals w) []) in
  let negvars := sdedup (map (image m) (filter (fun x => negb (dmem v x)) (vnegvars w))) in
  Ok (MkVV (fst vv) (snd vv) negvals negvars).

(** utilities.py:229-245, merge_chunkparts. *)
Definition part_truthy (w : vv) : bool :=
  truthy (vvals w)
  || (match var_truthy (vvar w) with Some _ => true | None => false end)
  || (match vnegvals w with [] => false | _ => true end)
  || (match vnegvars w with [] => false | _ => true end).
Definition merge_part (a b : slotval) : vv := if part_truthy (splitting a) then splitting a else splitting b.

(** ** Sides of rules *)

(** productions.py:286-288, 313-315: the signs whose content is a chunk. *)
Definition carries (code : ascii) : bool :=
  (Ascii.eqb code "=" || Ascii.eqb code "+" || Ascii.eqb code "@" || Ascii.eqb code "*")%char.

Definition chunk_in (c : content) : res chunk := match c with CChunk ch => Ok ch | _ => Err EAttr end.

(** productions.py:281-298, 308-325: [f] applied to every part of every chunk. *)
Definition with_slots (f : slotval -> res vv) (c : chunk) : res chunk :=
  l <- rmap (fun p => w <- f (snd p) ;; Ok (fst p, Some w)) (cslots c) ;; Ok (MkChunk (ctype c) l).
Definition with_parts (f : slotval -> res vv) (side : dict content) : res (dict content) :=
  rmap (fun p =>
    match fst p with
    | "" => Err EIndex
    | String code _ =>
        if carries code then ch <- chunk_in (snd p) ;; ch' <- with_slots f ch ;; Ok (fst p, CChunk ch')
        else Ok p
    end) side.

(** ** Matching variables (utilities.py:313-398) *)

(** sorted(temp_set, key=len)[0]; [tie x y] decides between two names of the same length. *)
Definition shorter (tie : string -> string -> bool) (x y : string) : string :=
  match Nat.compare (String.length x) (String.length y) with
  | Lt => x
  | Gt => y
  | Eq => if tie x y then x else y
  end.
Definition shortest (tie : string -> string -> bool) (l : list string) : option string :=
  match l with
  | [] => None
  | x :: l' => Some (fold_left (shorter tie) l' x)
  end.

(** utilities.py:317-331, temp_func. *)
Definition assign (tie : string -> string -> bool) (names : list string) (u : value)
  (mv : dict string * dict value) : dict string * dict value :=
  if truthy u then (fst mv, fold_left (fun d x => dset d x u) names (snd mv))
  else match shortest tie names with
       | None => mv
       | Some y => (fold_left (fun d x => dset d x y) names (fst mv), snd mv)
       end.

(** utilities.py:361-365, 379-383. *)
Definition var_list (w : vv) : list string := match var_truthy (vvar w) with Some x => [x] | None => [] end.
Definition both_vars (w2 w3 : vv) : list string := sdedup (var_list w2 ++ var_list w3)%list.

Definition part_of (d : dict slotval) (n : string) : vv :=
  match dget d n with Some s => splitting s | None => splitting None end.

(** utilities.py:350-366: the first rule retrieved [got] with the request [d3]. *)
Fixpoint match_retrieved (tie : string -> string -> bool) (slots : dict slotval) (d3 : dict slotval)
  (got : option chunk) (mv : dict string * dict value) : dict string * dict value :=
  match slots with
  | [] => mv
  | (n, s) :: slots' =>
      let u := match got with
               | Some ch => match dget (cslots ch) n with Some (Some w) => vvals w | _ => VNone end
               | None => VNone
               end in
      match_retrieved tie slots' d3 got (assign tie (both_vars (splitting s) (part_of d3 n)) u mv)
  end.

(** utilities.py:368-394. *)
Fixpoint match_plain (tie : string -> string -> bool) (slots : dict slotval) (d3 : dict slotval)
  (mv : dict string * dict value) : res (dict string * dict value) :=
  match slots with
  | [] => Ok mv
  | (n, s) :: slots' =>
      let w2 := splitting s in
      let w3 := part_of d3 n in
      if truthy (vvals w2) && truthy (vvals w3) && negb (val_eqb (vvals w2) (vvals w3)) then Err EActr
      else match_plain tie slots' d3
             (assign tie (both_vars w2 w3) (if truthy (vvals w2) then vvals w2 else
                                            if truthy (vvals w3) then vvals w3 else VNone) mv)
  end.

(** utilities.py:333-396, match.  [temp]: temp_slotvals; [vals]: slotvals. *)
Fixpoint match_sides (tie : string -> string -> bool) (lhs2 : dict content) (temp vals : dict slotinfo)
  (mv : dict string * dict value) : res (dict slotinfo * (dict string * dict value)) :=
  match lhs2 with
  | [] => Ok (vals, mv)
  | (key, c) :: lhs2' =>
      match key with
      | "" => Err EIndex
      | String code buff =>
          if carries code then
            ch <- chunk_in c ;;
            let temp' := ddel temp buff in
            match dget temp buff with
            | Some (SRet d3 got) =>
                match_sides tie lhs2' temp' (ddel vals buff) (match_retrieved tie (cslots ch) d3 got mv)
            | Some (SDict d3) => mv' <- match_plain tie (cslots ch) d3 mv ;; match_sides tie lhs2' temp' vals mv'
            | Some SNone => mv' <- match_plain tie (cslots ch) [] mv ;; match_sides tie lhs2' temp' vals mv'
            | None => mv' <- match_plain tie (cslots ch) (cslots ch) mv ;; match_sides tie lhs2' temp' vals mv'
            end
          else match_sides tie lhs2' temp vals mv
      end
  end.

(** ** Collapsing two rules (productions.py:121-273) *)

Definition is_buffer (o : option string) (buff : string) : bool :=
  match o with Some r => String.eqb buff r | None => false end.

(** productions.py:150-168: [slotvals[buff][slot].removeunused()] fails for whatever is stored there,
    so slotvals_slot is None throughout and the two tests are merged.  The slots are those of the second
    rule's test; a slot that the first rule's chunk does not have raises KeyError; the other slots of the
    first rule's chunk are left empty. *)
Definition merge_tests (c1 c2 : chunk) : res chunk :=
  l <- rmap (fun p => match dget (cslots c1) (fst p) with
                      | Some s1 => Ok (fst p, Some (merge_part s1 (snd p)))
                      | None => Err EKey
                      end) (cslots c2) ;;
  Ok (MkChunk (ctype c1) (map (fun p => (fst p, match dget l (fst p) with Some s => s | None => None end)) (cslots c1))).

(** productions.py:132-171: pro1 and what is left of pro2. *)
Fixpoint collapse_tests (vals : dict slotinfo) (retrieval : option string) (l1 l2 : dict content)
  : res (dict content * dict content) :=
  match l1 with
  | [] => Ok ([], l2)
  | (key, c1) :: l1' =>
      match key with
      | "" => Err EIndex
      | String code buff =>
          if Ascii.eqb code "?" then
            '(o1, o2) <- collapse_tests vals retrieval l1' l2 ;; Ok ((key, c1) :: o1, o2)
          else if Ascii.eqb code "=" then
            match dget l2 key with
            | None => '(o1, o2) <- collapse_tests vals retrieval l1' l2 ;; Ok ((key, c1) :: o1, o2)
            | Some c2 =>
                ch2 <- chunk_in c2 ;; ch1 <- chunk_in c1 ;;
                n <- (if dmem vals buff || negb (is_buffer retrieval buff) then merge_tests ch1 ch2 else Ok ch1) ;;
                '(o1, o2) <- collapse_tests vals retrieval l1' (ddel l2 key) ;; Ok ((key, CChunk n) :: o1, o2)
            end
          else Err EKey
      end
  end.

(** productions.py:180-187: does the first rule do anything to the buffer but modify it and add extra
    tests? *)
Fixpoint acts_on (buff : string) (rhs1 : dict content) : res bool :=
  match rhs1 with
  | [] => Ok false
  | (key, _) :: rhs1' =>
      match key with
      | "" => Err EIndex
      | String code b =>
          match rhs_meth code with
          | None => Err EKey
          | Some MModify | Some MExtra => acts_on buff rhs1'
          | Some _ => if String.eqb b buff then Ok true else acts_on buff rhs1'
          end
      end
  end.

(** productions.py:173-210: conditions of the second rule only. *)
Fixpoint collapse_rest (vals : dict slotinfo) (retrieval : option string) (rhs1 : res (dict content))
  (l2 l1 : dict content) : res (dict content) :=
  match l2 with
  | [] => Ok l1
  | (key, c2) :: l2' =>
      match key with
      | "" => Err EIndex
      | String code buff =>
          if Ascii.eqb code "?" then
            r1 <- rhs1 ;; a <- acts_on buff r1 ;;
            if (a : bool) then collapse_rest vals retrieval rhs1 l2' l1
            else match c2, dget l1 key with
                 | CDict d, None => collapse_rest vals retrieval rhs1 l2' (dset l1 key (CDict d))
                 | CDict d, Some (CDict d1) => collapse_rest vals retrieval rhs1 l2' (dset l1 key (CDict (dupdate d1 d)))
                 | _, _ => Err EAttr
                 end
          else if Ascii.eqb code "=" then
            ch2 <- chunk_in c2 ;;
            if dmem vals buff || negb (is_buffer retrieval buff)
            then collapse_rest vals retrieval rhs1 l2' (dset l1 key (CChunk ch2))
            else collapse_rest vals retrieval rhs1 l2' l1
          else Err EKey
      end
  end.

Definition collapse_lhs (vals : dict slotinfo) (retrieval : option string) (lhs1 rhs1 lhs2 : res (dict content))
  : res (dict content) :=
  l1 <- lhs1 ;; l2 <- lhs2 ;;
  '(o1, o2) <- collapse_tests vals retrieval l1 l2 ;;
  collapse_rest vals retrieval rhs1 o2 o1.

(** productions.py:218-243: the actions of the second rule. *)
Definition merge_action (vals : dict slotinfo) (p : string * content) : res (string * content) :=
  match fst p with
  | "" => Err EIndex
  | String code buff =>
      match rhs_meth code with
      | None => Err EKey
      | Some MExecute | Some MClear | Some MExtra => Ok p
      | Some _ =>
          match dget vals buff with
          | None => Ok p
          | Some i =>
              ch <- chunk_in (snd p) ;;
              let d := match i with SDict d => d | _ => [] end in
              Ok (fst p, CChunk (MkChunk (ctype ch)
                (map (fun q => (fst q, match dget d (fst q) with
                                       | Some s => Some (merge_part (snd q) s)
                                       | None => snd q
                                       end)) (cslots ch))))
          end
      end
  end.

(** productions.py:245-268: an action of the first rule is kept if there is no action on the same buffer
    yet (of the second rule, or an earlier one of the first). *)
Definition same_buffer (buff key : string) : bool :=
  match key with "" => String.eqb buff "" | String _ b => String.eqb b buff end.
Fixpoint keep_actions (retrieval : option string) (r1 acc : dict content) : res (dict content) :=
  match r1 with
  | [] => Ok acc
  | (key, c1) :: r1' =>
      match key with
      | "" => Err EIndex
      | String code buff =>
          if existsb (same_buffer buff) (dkeys acc) then keep_actions retrieval r1' acc
          else if is_buffer retrieval buff then keep_actions retrieval r1' acc
          else match rhs_meth code with
               | None => Err EKey
               | Some MExecute | Some MClear | Some MExtra => keep_actions retrieval r1' (dset acc key c1)
               | Some _ => ch <- chunk_in c1 ;; keep_actions retrieval r1' (dset acc key (CChunk ch))
               end
      end
  end.

Definition collapse_rhs (vals : dict slotinfo) (retrieval : option string) (rhs1 rhs2 : res (dict content))
  : res (dict content) :=
  r1 <- rhs1 ;; r2 <- rhs2 ;;
  acc <- rmap (merge_action vals) r2 ;;
  keep_actions retrieval r1 acc.

(** ** Which pairs are not compiled (productions.py:329-374) *)

Definition kind_of (s : st) (name : string) : option kind :=
  match buf_at s name with Some (_, b) => Some (bkind b) | None => None end.

Definition requests (side : dict content) (buff : string) : bool := existsb (String.eqb ("+" ++ buff)) (dkeys side).
Definition tests (side : dict content) (buff : string) : bool := existsb (String.eqb ("=" ++ buff)) (dkeys side).
(** A query of the buffer whose dictionary satisfies [p]. *)
Definition queries (side : dict content) (buff : string) (p : content -> bool) : bool :=
  existsb (fun q => String.eqb ("?" ++ buff) (fst q) && p (snd q)) side.
Definition asks_only (v : string) (c : content) : bool :=
  match c with CDict d => dict_eqb d [("state", v)] | _ => false end.

Definition unsafe_request (s : st) (lhs2 rhs2 : dict content) (buff : string) : bool :=
  match kind_of s buff with
  | Some KRetrieval => queries lhs2 buff (asks_only "error")
  | Some KMotor => requests rhs2 buff || queries lhs2 buff (fun c => negb (asks_only "busy" c))
  | Some KVisual | Some KLocation =>
      requests rhs2 buff || queries lhs2 buff (fun c => negb (asks_only "busy" c)) || tests lhs2 buff
  | _ => requests rhs2 buff
  end.
Definition unsafe (s : st) (rhs1 lhs2 rhs2 : dict content) : bool :=
  existsb (fun key => match key with
                      | String "+" buff => unsafe_request s lhs2 rhs2 buff
                      | _ => false
                      end) (dkeys rhs1).

(** ** compile_rules (productions.py:376-448) *)

(** productions.py:390-405: the variables in slotvals, and the last buffer with a retrieval.  None:
    that buffer is not empty. *)
Definition buffer_full (s : st) (name : string) : res bool :=
  match buf_at s name with
  | Some (_, b) => Ok (match bdata b with [] => false | _ => true end)
  | None => Err EKey
  end.
Fixpoint scan_vals (s : st) (vals : dict slotinfo) (retrieval : option string) (variables : list string)
  : res (option (option string * list string)) :=
  match vals with
  | [] => Ok (Some (retrieval, variables))
  | (buff, i) :: vals' =>
      match i with
      | SNone => scan_vals s vals' retrieval variables
      | SRet _ _ =>
          f <- buffer_full s buff ;;
          if (f : bool) then Ok None else scan_vals s vals' (Some buff) variables
      | SDict d =>
          scan_vals s vals' retrieval
            (sdedup (variables ++ flat_map (fun p => match snd p with
                                                     | Some w => match vvar w with Some x => [x] | None => [] end
                                                     | None => []
                                                     end) d))%list
      end
  end.

(** productions.py:418-424.  A list (a retrieval that the second rule does not test) is indexed by its
    own elements: TypeError. *)
Definition subst_vals (m : dict string) (v : dict value) (vals : dict slotinfo) : res (dict slotinfo) :=
  rmap (fun p => match snd p with
                 | SNone => Ok p
                 | SDict d => d' <- rmap (fun q => w <- subst_part m v (snd q) ;; Ok (fst q, Some w)) d ;; Ok (fst p, SDict d')
                 | SRet _ _ => Err EType
                 end) vals.

(** productions.py:376-426: the two sides of the new rule; an exception in a side is raised when the
    side is first asked for.  Ok None: not compiled. *)
Definition combine (tie : string -> string -> bool) (s : st) (n2 : string) (ru1 ru2 : rule) (vals : dict slotinfo)
  : res (option (res (dict content) * res (dict content))) :=
  if unsafe s (rrhs ru1) (rlhs ru2) (rrhs ru2) then Ok None
  else
    sc <- scan_vals s vals None [] ;;
    match sc with
    | None => Ok None
    | Some (retrieval, variables) =>
        lhs2 <- with_parts (rename_part n2 variables) (rlhs ru2) ;;
        '(vals1, mv) <- match_sides tie lhs2 vals vals ([], []) ;;
        vals2 <- subst_vals (fst mv) (snd mv) vals1 ;;
        let sub := with_parts (subst_part (fst mv) (snd mv)) in
        let l1 := sub (rlhs ru1) in
        let r1 := sub (rrhs ru1) in
        let l2 := sub lhs2 in
        let r2 := (x <- with_parts (rename_part n2 variables) (rrhs ru2) ;; sub x) in
        Ok (Some (collapse_lhs vals2 retrieval l1 r1 l2, collapse_rhs vals2 retrieval r1 r2))
    end.

(** == on the sides of rules: on chunks, equality of hashes (chunks.py:165-169). *)
Definition cmd_eqb (a b : string * string) : bool := String.eqb (fst a) (fst b) && String.eqb (snd a) (snd b).
Definition content_eqb (a b : content) : bool :=
  match a, b with
  | CChunk c, CChunk d => chunk_eqb nobind c d
  | CDict c, CDict d => dict_eqb c d
  | CCmds l, CCmds m => list_eqb cmd_eqb l m
  | CNone, CNone => true
  | _, _ => false
  end.
Definition side_eqb (a b : dict content) : bool :=
  Nat.eqb (List.length a) (List.length b) &&
  forallb (fun p => match dget b (fst p) with Some c => content_eqb (snd p) c | None => false end) a.

(** productions.py:431-435. *)
Definition nat_str (n : nat) : string := NilEmpty.string_of_uint (Nat.to_uint n).
Definition compiled_name (n1 n2 : string) (idx : nat) : string :=
  match idx with
  | O => n1 ++ " and " ++ n2
  | _ => n1 ++ " and " ++ n2 ++ " " ++ nat_str idx
  end.

(** productions.py:428-448.  [fuel] bounds the number of names tried; it is one more than the number of
    rules, and running out of it never happens (CompileFacts.place_total).  The sides of a new rule
    are evaluated here already. *)
Fixpoint place (p : params) (rules : dict rule) (n1 n2 : string) (u1 : Q) (lhs rhs : res (dict content))
  (idx fuel : nat) : res (option (string * bool * dict rule)) :=
  match fuel with
  | O => Ok None
  | S fuel' =>
      let name := compiled_name n1 n2 idx in
      match dget rules name with
      | None => l <- lhs ;; r <- rhs ;; Ok (Some (name, false, dset rules name (MkRule l r 0 None)))
      | Some old =>
          l <- lhs ;;
          same <- (if side_eqb (rlhs old) l then r <- rhs ;; Ok (side_eqb (rrhs old) r) else Ok false) ;;
          if (same : bool) then
            Ok (Some (name, true,
              if qlearn p then dset rules name (set_util old (round4 (rutil old + qalpha p * (u1 - rutil old)))) else rules))
          else place p rules n1 n2 u1 lhs rhs (S idx) fuel'
      end
  end.

(** productions.py:376-448 and the test of its result at line 558; [self[name]] of a rule that does not
    exist is None: TypeError. *)
Definition compile_rules (tie : string -> string -> bool) (s : st) (n1 n2 : string) (vals : dict slotinfo)
  : res (option (string * bool * dict rule)) :=
  match dget (srules s) n1, dget (srules s) n2 with
  | Some ru1, Some ru2 =>
      c <- combine tie s n2 ru1 ru2 vals ;;
      match c with
      | None => Ok None
      | Some (lhs, rhs) =>
          place (sp s) (srules s) n1 n2 (rutil ru1) lhs rhs 0 (S (List.length (srules s)))
      end
  | _, _ => Err EType
  end.
