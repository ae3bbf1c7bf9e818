(** Specification and proofs for stringsplitting (C37). *)
From Verif Require Import BaseFacts Chunks.
Local Open Scope string_scope.

(** ** Specification: writing a slot description *)

(** A part of a description: negated or not, variable or value, name. *)
Record part := MkPart { pneg : bool; pvar : bool; pname : string }.

Definition write_part (p : part) : string :=
  (if pneg p then "~" else "") ++ (if pvar p then "=" else "!") ++ pname p.
Fixpoint write (ps : list part) : string :=
  match ps with
  | [] => ""
  | p :: ps' => write_part p ++ write ps'
  end.

(** A text without the special characters. *)
Fixpoint plain_text (s : string) : Prop :=
  match s with
  | "" => True
  | String c s' => c <> "~"%char /\ c <> "!"%char /\ c <> "="%char /\ plain_text s'
  end.
Definition good_part (p : part) : Prop := pname p <> "" /\ plain_text (pname p).

Definition names_of (ps : list part) (ng vr : bool) (x : string) : Prop := In (MkPart ng vr x) ps.

(** [w] is what the parts say. *)
Definition says (ps : list part) (w : vv) : Prop :=
  (forall x, vvals w = VStr x <-> names_of ps false false x) /\
  (vvals w = VNone \/ exists x, vvals w = VStr x) /\
  (forall x, vvar w = Some x <-> names_of ps false true x) /\
  (forall x, In (VStr x) (vnegvals w) <-> names_of ps true false x) /\
  (forall v, In v (vnegvals w) -> exists x, v = VStr x) /\ NoDup (vnegvals w) /\
  (forall x, In x (vnegvars w) <-> names_of ps true true x) /\ NoDup (vnegvars w).

(** Two different values or two different variables. *)
Definition overfull (ps : list part) : Prop :=
  exists vr x y, x <> y /\ names_of ps false vr x /\ names_of ps false vr y.

(** ** Proofs *)

Definition nospecial (p : option ascii) : Prop :=
  match p with None => True | Some c => special c = false end.

Lemma special_false c : special c = false <-> c <> "~"%char /\ c <> "!"%char /\ c <> "="%char.
Proof.
  unfold special. rewrite !orb_false_iff, !Ascii.eqb_neq. tauto.
Qed.

Definition isvar_mark (vr : bool) : ascii := if vr then "="%char else "!"%char.

Lemma lookbehind_plain vr n p2 p1 : nospecial p1 -> lookbehind (isvar_mark vr) n p2 p1 = false.
Proof.
  destruct p1 as [c|]; [|reflexivity]. simpl. intros H. apply special_false in H. destruct H as (H1 & H2 & H3).
  destruct vr; simpl; [apply Ascii.eqb_neq in H3; rewrite H3|apply Ascii.eqb_neq in H2; rewrite H2]; reflexivity.
Qed.

(** Inside a match, plain text is collected. *)
Lemma findall_inside vr n s : plain_text s -> forall p2 p1 t rest, nospecial p1 ->
  exists q2 q1, nospecial q1 /\
    findall (isvar_mark vr) n p2 p1 (Some t) (s ++ rest) = findall (isvar_mark vr) n q2 q1 (Some (t ++ s)) rest.
Proof.
  induction s as [|c s IH]; intros P p2 p1 t rest N1.
  - exists p2, p1. rewrite append_nil_r. auto.
  - destruct P as (P1 & P2 & P3 & P). assert (Sc : special c = false) by (apply special_false; auto).
    destruct (IH P p1 (Some c) (t ++ String c "") rest Sc) as (q2 & q1 & Q1 & E).
    exists q2, q1. split; auto. simpl. rewrite Sc, E. rewrite append_assoc. reflexivity.
Qed.

(** Outside a match, plain text is skipped. *)
Lemma findall_outside vr n s : plain_text s -> forall p2 p1 rest, nospecial p1 ->
  exists q2 q1, nospecial q1 /\
    findall (isvar_mark vr) n p2 p1 None (s ++ rest) = findall (isvar_mark vr) n q2 q1 None rest.
Proof.
  induction s as [|c s IH]; intros P p2 p1 rest N1.
  - exists p2, p1. auto.
  - destruct P as (P1 & P2 & P3 & P). assert (Sc : special c = false) by (apply special_false; auto).
    destruct (IH P p1 (Some c) rest Sc) as (q2 & q1 & Q1 & E).
    exists q2, q1. split; auto. simpl. rewrite (lookbehind_plain vr n p2 p1 N1). exact E.
Qed.

Definition flush (acc : option string) : list string := match acc with Some t => [t] | None => [] end.

Definition hit (vr n : bool) (p : part) : bool := Bool.eqb (pvar p) vr && Bool.eqb (pneg p) n.

Definition preceded (n : bool) (p2 : option ascii) : bool :=
  match p2 with Some d => if n then Ascii.eqb d "~" else negb (Ascii.eqb d "~") | None => negb n end.

(** After the mark: the name. *)
Lemma findall_name vr n p2 mk s rest :
  plain_text s -> s <> "" ->
  exists q2 q1, nospecial q1 /\
    findall (isvar_mark vr) n p2 (Some (isvar_mark mk)) None (s ++ rest) =
    findall (isvar_mark vr) n q2 q1 (if Bool.eqb mk vr && preceded n p2 then Some s else None) rest.
Proof.
  destruct s as [|c s]; [congruence|]. intros P _. destruct P as (P1 & P2 & P3 & P).
  assert (Sc : special c = false) by (apply special_false; auto).
  assert (El : lookbehind (isvar_mark vr) n p2 (Some (isvar_mark mk)) = Bool.eqb mk vr && preceded n p2).
  { unfold lookbehind. destruct mk, vr; reflexivity. }
  cbn [append findall]. rewrite El, Sc. destruct (Bool.eqb mk vr && preceded n p2).
  - destruct (findall_inside vr n s P (Some (isvar_mark mk)) (Some c) (String c "") rest Sc) as (q2 & q1 & Q & E).
    exists q2, q1. split; [exact Q|]. exact E.
  - destruct (findall_outside vr n s P (Some (isvar_mark mk)) (Some c) rest Sc) as (q2 & q1 & Q & E).
    exists q2, q1. split; [exact Q|]. exact E.
Qed.

Lemma special_mark vr : special (isvar_mark vr) = true.
Proof. destruct vr; reflexivity. Qed.

(** A special character outside the look-behind ends the match in progress. *)
Lemma findall_special vr n p2 p1 acc c rest : nospecial p1 -> special c = true ->
  findall (isvar_mark vr) n p2 p1 acc (String c rest) = (flush acc ++ findall (isvar_mark vr) n p1 (Some c) None rest)%list.
Proof.
  intros N1 Sc. cbn [findall]. rewrite (lookbehind_plain vr n p2 p1 N1), Sc. destruct acc; reflexivity.
Qed.

Lemma findall_part vr n p2 p1 acc p rest : good_part p -> nospecial p1 ->
  exists q2 q1, nospecial q1 /\
    findall (isvar_mark vr) n p2 p1 acc (write_part p ++ rest) =
    (flush acc ++ findall (isvar_mark vr) n q2 q1 (if hit vr n p then Some (pname p) else None) rest)%list.
Proof.
  destruct p as [ng mk s]. intros [H0 P] N1. simpl in H0, P. unfold write_part, hit. cbn [pneg pvar pname].
  assert (Emk : (if mk then "=" else "!") = String (isvar_mark mk) "") by (destruct mk; reflexivity). rewrite Emk.
  destruct ng.
  - cbn [append]. rewrite findall_special by (try exact N1; reflexivity).
    cbn [findall]. assert (El : lookbehind (isvar_mark vr) n p1 (Some "~"%char) = false) by (destruct vr; reflexivity).
    rewrite El. destruct (findall_name vr n (Some "~"%char) mk s rest P H0) as (q2 & q1 & Q & E). exists q2, q1. split; [exact Q|].
    rewrite E. destruct (Bool.eqb mk vr); destruct n; reflexivity.
  - cbn [append]. rewrite findall_special by (try exact N1; apply special_mark).
    destruct (findall_name vr n p1 mk s rest P H0) as (q2 & q1 & Q & E). exists q2, q1. split; [exact Q|].
    rewrite E. f_equal. f_equal.
    assert (Ep : preceded n p1 = Bool.eqb false n).
    { destruct p1 as [d|]; [|destruct n; reflexivity]. simpl in N1. apply special_false in N1. destruct N1 as (N1 & _).
      apply Ascii.eqb_neq in N1. simpl. rewrite N1. destruct n; reflexivity. }
    rewrite Ep. reflexivity.
Qed.

Definition hits (vr n : bool) (ps : list part) : list string := map pname (filter (hit vr n) ps).

Lemma append_assoc' (a b c : string) : (a ++ b) ++ c = a ++ b ++ c.
Proof. induction a; simpl; congruence. Qed.

Lemma findall_write vr n ps : Forall good_part ps -> forall p2 p1 acc, nospecial p1 ->
  findall (isvar_mark vr) n p2 p1 acc (write ps) = (flush acc ++ hits vr n ps)%list.
Proof.
  induction 1 as [|p ps Hp Hps IH]; intros p2 p1 acc N1.
  - simpl. rewrite (lookbehind_plain vr n p2 p1 N1). destruct acc; reflexivity.
  - cbn [write]. destruct (findall_part vr n p2 p1 acc p (write ps) Hp N1) as (q2 & q1 & Q & E). rewrite E, (IH q2 q1 _ Q).
    unfold hits. simpl. destruct (hit vr n p); reflexivity.
Qed.

Lemma findall_prefix vr n pre ps : plain_text pre -> Forall good_part ps ->
  findall (isvar_mark vr) n None None None (pre ++ write ps) = hits vr n ps.
Proof.
  intros P G. destruct (findall_outside vr n pre P None None (write ps) I) as (q2 & q1 & Q & E).
  rewrite E, (findall_write vr n ps G q2 q1 None Q). reflexivity.
Qed.

Lemma hits_In vr n ps x : In x (hits vr n ps) <-> names_of ps n vr x.
Proof.
  unfold hits, names_of. rewrite in_map_iff. split.
  - intros (p & E & H). apply filter_In in H. destruct H as [H Hh]. destruct p as [a b c]. unfold hit in Hh. simpl in *.
    apply andb_true_iff in Hh. destruct Hh as [H1 H2]. apply eqb_prop in H1. apply eqb_prop in H2. subst. exact H.
  - intros H. exists (MkPart n vr x). split; [reflexivity|]. apply filter_In. split; [exact H|]. unfold hit. simpl.
    rewrite !eqb_reflx. reflexivity.
Qed.

Lemma stringsplitting_hits pre ps : plain_text pre -> Forall good_part ps -> ps <> [] ->
  stringsplitting (pre ++ write ps) =
  match sdedup (hits false false ps), sdedup (hits true false ps) with
  | _ :: _ :: _, _ => Err EActr
  | _, _ :: _ :: _ => Err EActr
  | values, variables =>
      Ok (MkVV (match values with x :: _ => VStr x | [] => VNone end)
               (match variables with x :: _ => Some x | [] => None end)
               (map VStr (sdedup (hits false true ps))) (sdedup (hits true true ps)))
  end.
Proof.
  intros P G Hne. unfold stringsplitting, findall_set.
  change "="%char with (isvar_mark true). change "!"%char with (isvar_mark false).
  rewrite !findall_prefix by assumption.
  assert (Hsome : exists vr n x, In x (sdedup (hits vr n ps))).
  { destruct ps as [|[a b c] ps]; [congruence|]. exists b, a, c. apply sdedup_In. apply hits_In. left. reflexivity. }
  destruct (sdedup (hits true false ps)) as [|v1 v2] eqn:E1; [|destruct (sdedup (hits false false ps)) as [|w1 [|w2 w3]]; destruct v2; reflexivity].
  destruct (sdedup (hits false false ps)) as [|w1 w2] eqn:E2; [|destruct w2; reflexivity].
  destruct (sdedup (hits true true ps)) as [|y1 y2] eqn:E3; [|reflexivity].
  destruct (sdedup (hits false true ps)) as [|z1 z2] eqn:E4; [|reflexivity].
  exfalso. destruct Hsome as (vr & n & x & Hx). destruct vr, n; try rewrite E1 in Hx; try rewrite E2 in Hx; try rewrite E3 in Hx; try rewrite E4 in Hx; destruct Hx.
Qed.

Lemma sdedup_two l a b r : sdedup l = a :: b :: r -> a <> b /\ In a l /\ In b l.
Proof.
  intros E. pose proof (sdedup_NoDup l) as ND. rewrite E in ND. inversion ND as [|? ? N1 N2]. repeat split.
  - intros ->. apply N1. left. reflexivity.
  - apply sdedup_In. rewrite E. simpl. auto.
  - apply sdedup_In. rewrite E. simpl. auto.
Qed.

Lemma sdedup_one l a : sdedup l = [a] -> forall x, In x l <-> x = a.
Proof. intros E x. rewrite <- sdedup_In, E. simpl. intuition. Qed.
Lemma sdedup_zero l : sdedup l = [] -> forall x, ~ In x l.
Proof. intros E x H. apply sdedup_In in H. rewrite E in H. destruct H. Qed.

Lemma small_not_two l : (forall a b r, sdedup l <> a :: b :: r) -> forall x y, In x l -> In y l -> x = y.
Proof.
  intros H x y Hx Hy. apply sdedup_In in Hx. apply sdedup_In in Hy. destruct (sdedup l) as [|a [|b r]].
  - destruct Hx.
  - destruct Hx as [<-|[]], Hy as [<-|[]]. reflexivity.
  - exfalso. apply (H a b r). reflexivity.
Qed.

Theorem split_faithful pre ps : plain_text pre -> Forall good_part ps -> ps <> [] ->
  match stringsplitting (pre ++ write ps) with
  | Ok w => ~ overfull ps /\ says ps w
  | Err e => e = EActr /\ overfull ps
  end.
Proof.
  intros P G Hne. rewrite stringsplitting_hits by assumption.
  destruct (sdedup (hits false false ps)) as [|v1 [|v2 vr]] eqn:Ev.
  3:{ destruct (sdedup_two _ _ _ _ Ev) as (D & I1 & I2). split; [reflexivity|]. exists false, v1, v2.
      split; [exact D|]. split; apply hits_In; assumption. }
  all: destruct (sdedup (hits true false ps)) as [|x1 [|x2 xr]] eqn:Ex.
  all: try (destruct (sdedup_two _ _ _ _ Ex) as (D & I1 & I2); split; [reflexivity|]; exists true, x1, x2;
            split; [exact D|]; split; apply hits_In; assumption).
  all: split; [intros (b & x & y & D & H1 & H2); apply D; apply hits_In in H1; apply hits_In in H2;
     destruct b; [eapply (small_not_two (hits true false ps))|eapply (small_not_two (hits false false ps))]; eauto;
     intros; try rewrite Ev; try rewrite Ex; discriminate|].
  all: unfold says; cbn [vvals vvar vnegvals vnegvars].
  all: assert (Hv : forall x, names_of ps false false x <-> In x (hits false false ps)) by (intros; rewrite hits_In; reflexivity).
  all: assert (Hx : forall x, names_of ps false true x <-> In x (hits true false ps)) by (intros; rewrite hits_In; reflexivity).
  all: split; [intros x; rewrite Hv; first [rewrite (sdedup_one _ _ Ev); split; congruence
         |split; [discriminate|intros Hf; destruct (sdedup_zero _ Ev _ Hf)]]|].
  all: split; [eauto|].
  all: split; [intros x; rewrite Hx; first [rewrite (sdedup_one _ _ Ex); split; congruence
         |split; [discriminate|intros Hf; destruct (sdedup_zero _ Ex _ Hf)]]|].
  all: split; [intros x; rewrite in_map_iff; rewrite <- hits_In; rewrite <- sdedup_In; split;
       [intros (y & Ey & Hy); injection Ey as <-; exact Hy|eauto]|].
  all: split; [intros v Hin; apply in_map_iff in Hin; destruct Hin as (y & <- & _); eauto|].
  all: split; [apply FinFun.Injective_map_NoDup; [intros a b E; congruence|apply sdedup_NoDup]|].
  all: split; [intros x; rewrite sdedup_In; apply hits_In|apply sdedup_NoDup].
Qed.

(** A text without marks is one value. *)
Theorem split_plain s : plain_text s -> stringsplitting s = Ok (MkVV (VStr s) None [] []).
Proof.
  intros P. unfold stringsplitting, findall_set.
  assert (H : forall vr n, findall (isvar_mark vr) n None None None s = []).
  { intros vr n. pose proof (findall_prefix vr n s [] P (Forall_nil _)) as H. simpl in H. rewrite append_nil_r in H. exact H. }
  change "="%char with (isvar_mark true). change "!"%char with (isvar_mark false). rewrite !H. reflexivity.
Qed.

(** Text before the first mark is dropped. *)
Theorem split_drops_prefix pre ps : plain_text pre -> Forall good_part ps -> ps <> [] ->
  stringsplitting (pre ++ write ps) = stringsplitting (write ps).
Proof.
  intros P G Hne. rewrite stringsplitting_hits by assumption.
  symmetry. apply (stringsplitting_hits "" ps I G Hne).
Qed.
