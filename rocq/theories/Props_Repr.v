(** Property theorems about the texts of chunks: C103. *)
From Verif Require Import BaseFacts Chunks ChunkSpec SplitFacts Strings Repr ReprSpec ReprFacts ReprWitness.
Local Open Scope string_scope.

(** ** C103 *)

(** Full statement: without [printable].  Missing: strings that contain separators (= ~ , and
    parentheses) and empty strings, see the refutation. *)
Theorem C103_printed_alike_partial : forall c d, printable c -> printable d -> repr c = repr d -> c = d.
Proof. exact repr_injective. Qed.
Print Assumptions C103_printed_alike_partial.

(** A quoted text and a variable are printed alike, but the chunks differ. *)
Theorem C103_printed_alike_refuted : exists s s' st st' c d,
  chunkstring rx_st "" s = Ok (st, c) /\ chunkstring rx_st "" s' = Ok (st', d) /\
  repr c = repr d /\ repr c = "t(a= =x)" /\ chunk_eqb nobind c d = false /\ chunk_eqb nobind d c = false.
Proof. exact printed_alike. Qed.
Print Assumptions C103_printed_alike_refuted.

(** Full statement: for every slot that Chunk makes from a string.  Missing: values with
    anything else beside them and negated values, see the refutation. *)
Theorem C103_read_again_partial : forall w,
  variables_only w \/ value_only w -> stringsplitting (vv_text value_text w) = Ok w.
Proof. exact reread. Qed.
Print Assumptions C103_read_again_partial.

(** The value of !5=x is lost, and ~!5 becomes a value. *)
Theorem C103_read_again_refuted :
  (exists s w, stringsplitting s = Ok w /\
     stringsplitting (vv_text value_text w) = Ok (MkVV VNone (vvar w) [] []) /\ vvals w <> VNone) /\
  (exists s w, stringsplitting s = Ok w /\ vvals w = VNone /\
     exists w', stringsplitting (vv_text value_text w) = Ok w' /\ vvals w' <> VNone).
Proof. exact reread_differs. Qed.
Print Assumptions C103_read_again_refuted.

Example C103_used : printable rx_out /\
  repr rx_out = "fact(arg= pair(left= one, right= ), no= 2=x~3~pair(left= one, right= )~=y~=z)".
Proof. exact rx_printed. Qed.

Example C103_read_again_used :
  variables_only (MkVV VNone (Some "x") [] ["y"; "z"]) /\ vv_text value_text (MkVV VNone (Some "x") [] ["y"; "z"]) = "=x~=y~=z" /\
  value_only (MkVV (VStr "two words") None [] []).
Proof.
  assert (P : forall s, In s ["x"; "y"; "z"; "two words"] -> s <> "" /\ plain_text s).
  { intros s [<-|[<-|[<-|[<-|[]]]]]; (split; [discriminate|]); cbn; repeat split; discriminate. }
  split; [|split; [reflexivity|]].
  - split; [reflexivity|]. split; [reflexivity|]. split; [left; discriminate|]. split.
    + intros x [E|[<-|[<-|[]]]]; [injection E as <-|..]; apply P; cbn; auto.
    + repeat constructor; cbn; intuition discriminate.
  - exists "two words". split; [reflexivity|]. apply P. cbn. auto.
Qed.
