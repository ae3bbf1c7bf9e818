(** Why a module can be busy: an invariant of the simulation. *)
From Coq Require Import Lia.
From Verif Require Import Base BaseFacts Chunks DecMem Buffers BufferFacts Productions ProdSpec LearnFacts Sim SimFacts RunFacts QueueFacts FailFacts FreeSpec FreeGens FreeQueue.
Local Open Scope string_scope.
Local Open Scope list_scope.
Local Open Scope nat_scope.

Section Module.
(** The buffer, and the names of the buffers. *)
Variables (i : nat) (nm : dict nat).
Definition mine (n : string) : Prop := dget nm n = Some i.
Lemma mine_dec n : mine n \/ ~ mine n.
Proof. unfold mine. destruct (dget nm n) as [j|]; [|right; discriminate]. destruct (Nat.eq_dec j i) as [->|N]; [left; reflexivity|right; congruence]. Qed.

(** ** Definitions *)

Definition at_ (p : nat) (c : code) (S : sim) : Prop := exists x, proc_at p S = Some x /\ pcode x = c.
Definition rint (B : nat) (S : sim) : Prop := exists q, In q (heap S) /\ role_at (qev q) (RInt B) S.
Definition aimed (B : nat) (l : list work) : Prop := (exists ev l', l = WCb ev (CInt B) :: l') \/ (exists l', l = WRun B (Bad TInterrupt) :: l').
Definition doomed (B : nat) (S : sim) : Prop := rint B S \/ aimed B (todo S).
Definition resumed (p : nat) (l : list work) : Prop := (exists ev l', l = WCb ev (CResume p) :: l') \/ (exists o l', l = WRun p o :: l').
Definition linked (n : string) (p : nat) (S : sim) : Prop := (exists E, at_ E (KExtraPro n p) S) \/ doomed p S.
Definition pays_now (n : string) (p : nat) (g : gen) (S : sim) : Prop := mine n /\ exists b, pay true b i true g /\ (b = true -> linked n p S).
Definition payer (p : nat) (S : sim) : Prop := exists n g, (at_ p (KLocal0 false n g) S \/ exists e, at_ p (KLocal false n e g) S) /\ pays_now n p g S.
Definition heir (p : nat) (S : sim) : Prop := ~ resumed p (todo S) /\ exists n g, at_ p (KLocal0 false n g) S /\ pays_now n p g S.
Definition waits (S : sim) : Prop := exists E n pro g x e, at_ E (KExtraPro n pro) S /\ mine n /\ proc_at pro S = Some x /\ event_at (pown x) S = Some e /\ evalue e = Some (Good (XCont g)) /\ pay true false i true g.
Definition rules (S : sim) : Prop := exists p n e g, at_ p (KLocal true n e g) S /\ pay true false i true g.
Definition Cause (S : sim) : Prop := qd i (ss S) \/ (exists p, payer p S) \/ waits S \/ rules S.
Definition locl (n : string) (c : code) : Prop := match c with KLocal0 false m _ | KLocal false m _ _ => m = n | _ => False end.
Definition first (q q' : qent) : Prop := (qtime q <= qtime q')%Z /\ qprio q = qprio q' /\ qid q < qid q'.
Definition good (n : string) (g : gen) : Prop := (mine n -> exists h, pay true false i h g) /\ (~ mine n -> pay false false i false g).
Definition tidyg (n : string) (p : nat) (g : gen) (S : sim) : Prop :=
  (mine n -> exists b h, pay true b i h g /\ (b = true -> linked n p S)) /\ (~ mine n -> pay false true i false g).
Definition tidy (p : nat) (S : sim) (c : code) : Prop :=
  match c with
  | KLocal0 false n g | KLocal false n _ g => tidyg n p g S
  | KLocal0 true _ g => pay true false i false g
  | KLocal true _ _ g => exists h, pay true false i h g
  | _ => True
  end.
Definition Heir (q : qent) (S : sim) : Prop := exists q' p', In q' (heap S) /\ role_at (qev q') (RInit p') S /\ first q q' /\ heir p' S.
Definition named (s : st) : Prop := snames s = nm /\ forall pr, In pr (sprocs s) -> pr = PProc \/ exists id n m j c bs t, pr = PReq id n m j c bs t /\ dget nm n = Some j.
Record Bz (S : sim) : Prop := MkBz {
  b_lu : LU S;
  b_work : working i (ss S) -> Cause S;
  b_code : forall p x, proc_at p S = Some x -> tidy p S (pcode x);
  b_val : forall p x e g n, proc_at p S = Some x -> pkind x = Some (GLocal false n) -> event_at (pown x) S = Some e -> evalue e = Some (Good (XCont g)) -> good n g;
  b_names : named (ss S);
  b_hid : forall q B x n, In q (heap S) -> role_at (qev q) (RInt B) S -> proc_at B S = Some x -> locl n (pcode x) -> mine n -> Heir q S;
  b_hit : forall B x n, aimed B (todo S) -> proc_at B S = Some x -> locl n (pcode x) -> mine n -> exists p', heir p' S;
  b_tie : forall E v l x n pro y e, todo S = WRun E (Good v) :: l -> proc_at E S = Some x -> pcode x = KExtraPro n pro -> proc_at pro S = Some y -> event_at (pown y) S = Some e -> evalue e = Some (Good v) }.

(** ** Changes *)

Lemma named_keeps s s' : keepsq s s' -> named s -> named s'.
Proof.
  intros (A & B & C) [N P]. split; [congruence|]. intros pr H. destruct (C pr H) as [H'|[H'|H']]; [auto|auto|]. right. rewrite N in H'. exact H'.
Qed.
Lemma aimed_resumed p p' l : resumed p l -> aimed p' l -> p' = p.
Proof. intros [(a & b & ->)|(a & b & ->)] [(c & d & E)|(d & E)]; congruence. Qed.
Lemma linked_keep S S' n p : linked n p S -> (forall E x, proc_at E S = Some x -> pcode x = KExtraPro n p -> at_ E (KExtraPro n p) S' \/ doomed p S') -> (doomed p S -> doomed p S') -> linked n p S'.
Proof. intros [(E & x & Hx & Hc)|H] A B; [destruct (A E x Hx Hc) as [X|X]; [left; eauto|right; exact X]|right; auto]. Qed.

Section Run.
Variables (p : nat) (o : outcome) (w : nat) (r r3 : prc) (S S3 : sim).
Hypothesis HB : Bz S.
Hypothesis HI : Inv S.
Hypothesis HI3 : Inv S3.
Hypothesis Et : todo S = [WRun p o; WEnd w].
Hypothesis Hr : proc_at p S = Some r.
Hypothesis Hk : pcode r <> KEnd.
Hypothesis Hlu : LU S3.
Hypothesis Hheap : forall q, In q (heap S) -> In q (heap S3).
Hypothesis Hevs : forall ev e, event_at ev S = Some e -> exists e', event_at ev S3 = Some e' /\ erole e' = erole e /\ forall v, evalue e = Some v -> evalue e' = Some v.
Hypothesis Hprs : forall p' x, p' <> p -> proc_at p' S = Some x -> proc_at p' S3 = Some x.
Hypothesis Hr3 : proc_at p S3 = Some r3.
Hypothesis Kind3 : pkind r3 = pkind r.
Hypothesis Own3 : pown r3 = pown r.
Hypothesis Hlink : forall n' p' x, pcode r = KExtraPro n' p' -> proc_at p' S = Some x -> pcode x = KEnd \/ rint p' S3.
Hypothesis Htodo : todo S3 = [WEnd w] \/ exists o', todo S3 = [WRun p o'; WEnd w] /\ ~ firm (pcode r3) /\ forall n, ~ locl n (pcode r3).

Lemma run_role ev ro : role_at ev ro S -> role_at ev ro S3.
Proof. intros (e & He & R). destruct (Hevs _ _ He) as (e' & He' & R' & _). exists e'. split; [exact He'|congruence]. Qed.
Lemma run_rint B : rint B S -> rint B S3.
Proof. intros (q & Hq & R). exists q. split; [auto|]. apply run_role, R. Qed.
Lemma run_resumed : resumed p (todo S). Proof. right. rewrite Et. eauto. Qed.
Lemma run_other p' : p' <> p -> ~ resumed p' (todo S3).
Proof. intros N [(a & b & E)|(a & b & E)]; destruct Htodo as [E'|(o' & E' & _ & _)]; rewrite E' in E; congruence. Qed.
Lemma run_linked n p' x : p' <> p -> proc_at p' S = Some x -> pcode x <> KEnd -> linked n p' S -> linked n p' S3.
Proof.
  intros N Hx Kx H. apply (linked_keep S); [exact H| |].
  - intros E y Hy Hc. destruct (Nat.eq_dec E p) as [->|Ne].
    + assert (y = r) by congruence. subst y. destruct (Hlink _ _ _ Hc Hx) as [X|X]; [contradiction|right; left; exact X].
    + left. exists y. split; [exact (Hprs _ _ Ne Hy)|exact Hc].
  - intros [X|X]; [left; apply run_rint, X|]. elim N. exact (aimed_resumed _ _ _ run_resumed X).
Qed.
Lemma run_pays n p' g x : p' <> p -> proc_at p' S = Some x -> pcode x <> KEnd -> pays_now n p' g S -> pays_now n p' g S3.
Proof. intros N Hx Kx (Hm & b & P & L). split; [exact Hm|]. exists b. split; [exact P|]. intros Eb. apply (run_linked n p' x); auto. Qed.
Lemma run_payer p' : p' <> p -> payer p' S -> payer p' S3.
Proof.
  intros N (n & g & A & P). exists n, g. destruct A as [(x & Hx & Hc)|(e & x & Hx & Hc)].
  - split; [left; exists x; auto|]. apply (run_pays n p' g x); auto. congruence.
  - split; [right; exists e, x; auto|]. apply (run_pays n p' g x); auto. congruence.
Qed.
Lemma run_heir p' : heir p' S -> heir p' S3 /\ p' <> p.
Proof.
  intros (Nr & n & g & (x & Hx & Hc) & P). assert (N : p' <> p) by (intros ->; exact (Nr run_resumed)). split; [|exact N]. split; [apply run_other; exact N|]. exists n, g. split; [exists x; auto|]. apply (run_pays n p' g x); auto. congruence.
Qed.
Lemma heir_payer p' S0 : heir p' S0 -> payer p' S0.
Proof. intros (_ & n & g & A & P). exists n, g. auto. Qed.
Lemma run_waits : waits S -> (forall n pro, pcode r <> KExtraPro n pro) -> waits S3.
Proof.
  intros (E & n & pro & g & x & e & (y & Hy & Hc) & Hm & Hx & He & Hv & P) N. assert (Ne : E <> p) by (intros ->; apply (N n pro); congruence).
  destruct (Hevs _ _ He) as (e' & He' & _ & Hv').
  destruct (Nat.eq_dec pro p) as [->|Np].
  - exists E, n, p, g, r3, e'. split; [exists y; auto|]. split; [exact Hm|]. split; [exact Hr3|]. assert (x = r) by congruence. subst x. rewrite Own3. split; [exact He'|]. split; [exact (Hv' _ Hv)|exact P].
  - exists E, n, pro, g, x, e'. split; [exists y; auto|]. split; [exact Hm|]. split; [auto|]. split; [exact He'|]. split; [exact (Hv' _ Hv)|exact P].
Qed.
Lemma run_rules : rules S -> (forall n e g, pcode r <> KLocal true n e g) -> rules S3.
Proof. intros (p' & n & e & g & (x & Hx & Hc) & P) N. assert (Ne : p' <> p) by (intros ->; apply (N n e g); congruence). exists p', n, e, g. split; [exists x; auto|exact P]. Qed.
(** The causes that have nothing to do with [p]. *)
Definition quietly : Prop := forall n pro e g b, pcode r <> KExtraPro n pro /\ pcode r <> KLocal0 b n g /\ pcode r <> KLocal b n e g.
Lemma run_Cause : quietly -> (qd i (ss S) -> qd i (ss S3)) -> Cause S -> Cause S3.
Proof.
  intros Qu Hq [C|[(p' & C)|[C|C]]]; [left; auto|right; left|right; right; left|right; right; right].
  - exists p'. apply run_payer; [|exact C]. intros ->. destruct C as (n & g & [(x & Hx & Hc)|(e & x & Hx & Hc)] & _); assert (x = r) by congruence; subst x.
    + destruct (Qu n 0 (ev 0 "" WUnknown) g false) as (_ & A & _). contradiction.
    + destruct (Qu n 0 e g false) as (_ & _ & A). contradiction.
  - apply run_waits; [exact C|]. intros n pro. apply (Qu n pro (ev 0 "" WUnknown) GRet false).
  - apply run_rules; [exact C|]. intros n e g. apply (Qu n 0 e g true).
Qed.

Hypothesis Hnew : forall p' x, proc_at p' S3 = Some x -> p' = p \/ proc_at p' S = Some x \/ (proc_at p' S = None /\ pcode x <> KEnd /\ tidy p' S3 (pcode x)).
Hypothesis Hint : forall q B, In q (heap S3) -> role_at (qev q) (RInt B) S3 ->
  (In q (heap S) /\ role_at (qev q) (RInt B) S) \/ forall x n, proc_at B S3 = Some x -> locl n (pcode x) -> mine n -> Heir q S3.
Hypothesis Hwork : working i (ss S3) -> Cause S3.
Hypothesis Htidy : tidy p S3 (pcode r3).
Hypothesis Hval : forall e g n, pkind r = Some (GLocal false n) -> event_at (pown r) S3 = Some e -> evalue e = Some (Good (XCont g)) -> good n g.
Hypothesis Hnames : named (ss S3).
Lemma run_Bz : Bz S3.
Proof.
  constructor; auto.
  - intros p' x Hx. destruct (Nat.eq_dec p' p) as [->|N]; [assert (x = r3) by congruence; subst x; exact Htidy|]. destruct (Hnew _ _ Hx) as [->|[Hx'|(_ & _ & T)]]; [contradiction| |exact T].
    pose proof (b_code _ HB _ _ Hx') as T. assert (Tg : forall n g, pcode x <> KEnd -> tidyg n p' g S -> tidyg n p' g S3).
    { intros n g Kx [A B]. split; [|exact B]. intros Hm. destruct (A Hm) as (b & h & P & L). exists b, h. split; [exact P|]. intros Eb. apply (run_linked n p' x); auto. }
    unfold tidy in *. destruct (pcode x) as [| | | | | | | |[|]|[|]| | | | |]; auto; apply Tg; auto; discriminate.
  - intros p' x e g n Hx Kx He Hv. destruct (Nat.eq_dec p' p) as [->|N].
    + assert (x = r3) by congruence. subst x. rewrite Own3 in He. rewrite Kind3 in Kx. exact (Hval e g n Kx He Hv).
    + destruct (i_own _ HI3 _ _ Hx) as (y & Hy & _ & Vy). assert (y = e) by congruence. subst y.
      destruct (Hnew _ _ Hx) as [->|[Hx'|(_ & Kn & _)]]; [contradiction| |apply Vy in Kn; congruence].
      destruct (i_own _ HI _ _ Hx') as (y & Hy' & _ & Vy'). destruct (Hevs _ _ Hy') as (e' & He' & _ & Hv'). assert (e' = e) by congruence. subst e'.
      destruct (evalue y) as [v|] eqn:Ey.
      * specialize (Hv' v eq_refl). assert (v = Good (XCont g)) by congruence. subst v. exact (b_val _ HB p' x y g n Hx' Kx Hy' Ey).
      * assert (Kn : pcode x <> KEnd) by (apply Vy'; reflexivity). apply Vy in Kn. congruence.
  - intros q B x n Hq R Hx L Hm. destruct (Hint q B Hq R) as [[Hq' R']|H']; [|exact (H' x n Hx L Hm)].
    assert (Hx' : exists x', proc_at B S = Some x' /\ locl n (pcode x')).
    { destruct (Nat.eq_dec B p) as [->|N].
      - exists r. split; [exact Hr|]. assert (x = r3) by congruence. subst x. destruct (i_kind _ HI _ _ Hr) as [[X|X] _]; [contradiction|]. destruct (i_kind _ HI3 _ _ Hr3) as [[Y|Y] _].
        + rewrite Y in L. contradiction.
        + rewrite Kind3, X in Y. destruct (pcode r3) as [| | | | | | | |[|]|[|]| | | | |]; try contradiction; cbn [locl] in L; subst; destruct (pcode r) as [| | | | | | | |[|]|[|]| | | | |]; try discriminate Y; injection Y as ->; reflexivity.
      - destruct R' as (e & He & Re). destruct (i_role _ HI _ _ _ He Re) as (_ & x' & Hx' & _). exists x'. split; [exact Hx'|]. pose proof (Hprs _ _ N Hx'). assert (x' = x) by congruence. subst. exact L. }
    destruct Hx' as (x' & Hx' & L'). destruct (b_hid _ HB q B x' n Hq' R' Hx' L' Hm) as (q' & p' & A & B' & C & D). exists q', p'. split; [auto|]. split; [apply run_role, B'|]. split; [exact C|]. apply run_heir, D.
  - intros B x n A Hx L Hm. exfalso. destruct Htodo as [E|(o' & E & F)]; rewrite E in A; destruct A as [(a & b & A)|(b & A)]; try discriminate A. injection A as <- _ _.
    assert (x = r3) by congruence. subst x. destruct F as [_ F]. exact (F n L).
  - intros E v l x n pro y e A Hx Hc. exfalso. destruct Htodo as [E'|(o' & E' & F)]; rewrite E' in A; [discriminate|]. injection A as <- _ _. assert (x = r3) by congruence. subst x. rewrite Hc in F. destruct F as [F _]. apply F. exact I.
Qed.
End Run.

(** Steps in which no process runs. *)
Section View.
Variables (S S' : sim).
Hypothesis HB : Bz S.
Hypothesis Ep : prs S' = prs S.
Hypothesis Es : ss S' = ss S.
Hypothesis Evs : forall ev e, event_at ev S = Some e -> exists e', event_at ev S' = Some e' /\ erole e' = erole e /\ evalue e' = evalue e.
Hypothesis Evs' : forall ev e', event_at ev S' = Some e' -> exists e, event_at ev S = Some e /\ erole e' = erole e /\ evalue e' = evalue e.
Hypothesis Hdoom : forall p x, proc_at p S = Some x -> pcode x <> KEnd -> doomed p S -> doomed p S'.
Lemma view_pat p : proc_at p S' = proc_at p S. Proof. unfold proc_at. rewrite Ep. reflexivity. Qed.
Lemma view_at p c : at_ p c S -> at_ p c S'. Proof. unfold at_. rewrite view_pat. auto. Qed.
Lemma view_role ev ro : role_at ev ro S <-> role_at ev ro S'.
Proof.
  split; intros (e & He & R).
  - destruct (Evs _ _ He) as (e' & He' & R' & _). exists e'. split; [exact He'|congruence].
  - destruct (Evs' _ _ He) as (e' & He' & R' & _). exists e'. split; [exact He'|congruence].
Qed.
Lemma view_linked n p x : proc_at p S = Some x -> pcode x <> KEnd -> linked n p S -> linked n p S'.
Proof.
  intros Hx Kx H. apply (linked_keep S); [exact H| |exact (Hdoom p x Hx Kx)]. intros E y Hy Hc. left. apply view_at. exists y. auto.
Qed.
Lemma view_pays n p g x : proc_at p S = Some x -> pcode x <> KEnd -> pays_now n p g S -> pays_now n p g S'.
Proof. intros Hx Kx (Hm & b & P & L). split; [exact Hm|]. exists b. split; [exact P|]. intros Eb. apply (view_linked n p x); auto. Qed.
Lemma view_payer p : payer p S -> payer p S'.
Proof.
  intros (n & g & A & P). exists n, g. destruct A as [(x & Hx & Hc)|(e & x & Hx & Hc)].
  - split; [left; apply view_at; exists x; auto|]. apply (view_pays n p g x); auto. congruence.
  - split; [right; exists e; apply view_at; exists x; auto|]. apply (view_pays n p g x); auto. congruence.
Qed.
Lemma view_heir p : heir p S -> ~ resumed p (todo S') -> heir p S'.
Proof.
  intros (_ & n & g & A & P) N. split; [exact N|]. exists n, g. split; [apply view_at; exact A|]. destruct A as (x & Hx & Hc). apply (view_pays n p g x); auto. congruence.
Qed.
Lemma view_Cause : Cause S -> Cause S'.
Proof.
  intros [C|[(p & C)|[C|C]]]; [left; rewrite Es; exact C|right; left; exists p; apply view_payer, C|right; right; left|right; right; right].
  - destruct C as (E & n & pro & g & x & e & A & Hm & Hx & He & Hv & P). destruct (Evs _ _ He) as (e' & He' & _ & Hv'). exists E, n, pro, g, x, e'. split; [apply view_at, A|]. split; [exact Hm|]. rewrite view_pat. split; [exact Hx|]. split; [exact He'|]. split; [congruence|exact P].
  - destruct C as (p & n & e & g & A & P). exists p, n, e, g. split; [apply view_at, A|exact P].
Qed.
Hypothesis Hlu : LU S'.
Hypothesis Hheap : forall q, In q (heap S') -> In q (heap S).
Hypothesis Hq : forall q q', In q (heap S') -> In q' (heap S) -> first q q' -> In q' (heap S').
Hypothesis Hres : forall q' p' n g, In q' (heap S') -> role_at (qev q') (RInit p') S -> at_ p' (KLocal0 false n g) S -> ~ resumed p' (todo S) -> ~ resumed p' (todo S').
Hypothesis Hhit : forall B x n, aimed B (todo S') -> proc_at B S = Some x -> locl n (pcode x) -> mine n -> exists p', heir p' S /\ ~ resumed p' (todo S').
Hypothesis Htie : forall E v l x n pro y e, todo S' = WRun E (Good v) :: l -> proc_at E S = Some x -> pcode x = KExtraPro n pro -> proc_at pro S = Some y -> event_at (pown y) S = Some e -> evalue e = Some (Good v).
Lemma view_Bz : Bz S'.
Proof.
  constructor.
  - exact Hlu.
  - rewrite Es. intros W. apply view_Cause, (b_work _ HB W).
  - intros p x Hx. rewrite view_pat in Hx. pose proof (b_code _ HB _ _ Hx) as T. assert (Tg : forall n g, pcode x <> KEnd -> tidyg n p g S -> tidyg n p g S').
    { intros n g Kx [A B]. split; [|exact B]. intros Hm. destruct (A Hm) as (b & h & P & L). exists b, h. split; [exact P|]. intros Eb. apply (view_linked n p x); auto. }
    unfold tidy in *. destruct (pcode x) as [| | | | | | | |[|]|[|]| | | | |]; auto; apply Tg; auto; discriminate.
  - intros p x e g n Hx Kx He Hv. rewrite view_pat in Hx. destruct (Evs' _ _ He) as (e0 & He0 & _ & Hv0). apply (b_val _ HB p x e0 g n); auto. congruence.
  - rewrite Es. exact (b_names _ HB).
  - intros q B x n H R Hx L Hm. rewrite view_pat in Hx. apply view_role in R. destruct (b_hid _ HB q B x n (Hheap _ H) R Hx L Hm) as (q' & p' & A & A' & C & D).
    exists q', p'. assert (H' : In q' (heap S')) by exact (Hq q q' H A C). split; [exact H'|]. split; [apply view_role, A'|]. split; [exact C|]. apply view_heir; [exact D|]. destruct D as (Nr & m & g & At & _). exact (Hres q' p' m g H' A' At Nr).
  - intros B x n A Hx L Hm. rewrite view_pat in Hx. destruct (Hhit B x n A Hx L Hm) as (p' & D & N). exists p'. apply view_heir; assumption.
  - intros E v l x n pro y e A Hx Hc Hy He. rewrite view_pat in Hx, Hy. destruct (Evs' _ _ He) as (e0 & He0 & _ & Hv0). rewrite Hv0. exact (Htie E v l x n pro y e0 A Hx Hc Hy He0).
Qed.
End View.
End Module.
