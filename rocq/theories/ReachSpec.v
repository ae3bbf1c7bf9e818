(** What a simulation can do to buffers and memories. *)
From Verif Require Import Base Chunks DecMem Buffers Productions Sim.
Local Open Scope string_scope.

(** Calls of methods of buffers that processes of a simulation make. *)
Definition sim_op (o : op) : Prop :=
  match o with OAdd _ _ _ _ _ | OClear _ _ _ | OModify _ _ _ _ | OCreate _ _ _ | ORetrieve _ _ _ _ _ _ _ => True | _ => False end.

(** From [w] to [w'] by such calls, by making chunks (which may define types), and by taking a
    chunk out of a buffer (which is what is left of a modification with something that is not a chunk). *)
Inductive reach (w : world) : world -> Prop :=
| reach_refl : reach w w
| reach_op w' o : reach w w' -> sim_op o -> reach w (fst (step w' o))
| reach_chunk w' ty args r c : reach w w' -> mk_chunk (wreg w') ty args = Ok (r, c) -> reach w (set_reg w' r)
| reach_pop w' i b d rest : reach w w' -> nth_error (bufs w') i = Some b -> bdata b = d :: rest -> reach w (set_buf w' i (set_data b rest)).

(** The parts of the program that are left open (code called by rules, visual search and visual
    encoding) do no more than that. *)
Definition respects (O : oracle) : Prop :=
  (forall s i l, reach (sw s) (fst (oexec O s i l))) /\
  (forall s i c bs x, reach (sw s) (fst (ofind O s i c bs x))) /\
  (forall s i c bs, reach (sw s) (fst (oshift O s i c bs))) /\
  (forall s i l, reach (sw s) (fst (oauto O s i l))) /\
  (forall s i l, reach (sw s) (fst (oautobuf O s i l))).

(** Environments that leave buffers, memories, parameters and names alone and press no keys. *)
Fixpoint aloof (g : gen) : Prop :=
  match g with
  | GRet => True
  | GRaise _ => True
  | GYield _ k => aloof k
  | GCont k => aloof k
  | GNote _ k => aloof k
  | GAct f k => (forall s, sw (f s) = sw s /\ sp (f s) = sp s /\ snames (f s) = snames s /\ sdm (f s) = sdm s /\ sprep (f s) = sprep s /\
                  incl (skeys (f s)) (skeys s)) /\ aloof k
  | GGet k => forall s, aloof (k s)
  end.
