(** A search by a rule, on a small screen. *)
From Verif Require Import Base BaseFacts Chunks TypeFacts DecMem DecMemFacts Buffers BufferFacts Productions ProdSpec CycleFacts EffectFacts SelectFacts ProdWitness Vision VisionSpec VisionFacts VisionWitness VisionEffect.
Local Open Scope string_scope.
Local Open Scope list_scope.

(** Searches as in vision.py with the eyes at (0, 0). *)
Definition vision_oracle : oracle :=
  MkOr (fun _ _ => 0%Q) (oretr wx_oracle) (oexec wx_oracle)
    (fun s i c bs extra =>
       match nth_error (bufs (sw s)) i, c with
       | Some b, CChunk o =>
           let (r, x) := visual_find (wreg (sw s)) (0, 0) (bfinst b) (bstims b) (xstim (sscreen s)) o bs extra in
           (set_reg (sw s) r, match x with
             | Ok (Some c, Some st) => Ok (Some (c, st))
             | Ok _ => Ok None
             | Err e => Err e
             end)
       | _, _ => (sw s, Err EAttr)
       end)
    (oshift wx_oracle) (ocompile wx_oracle) (oauto wx_oracle) (oautobuf wx_oracle).
Lemma vision_sees : sees vision_oracle (fun _ => (0, 0)%Q).
Proof.
  intros s i b o bs extra Eb Kb. simpl. rewrite Eb.
  destruct (visual_find (wreg (sw s)) (0, 0) (bfinst b) (bstims b) (xstim (sscreen s)) o bs extra). reflexivity.
Qed.

Definition lx_request : chunk := ask [("screen_y", "lowest")].
Definition lx_state : st :=
  MkSt wx_par (MkW [add_run []] [MkBuf KLocation [loc_chunk 9 9] (Some 0%nat) 4 [] [] None 0] init_registry)
    [("loc", 0%nat)] [("decmem", 0%nat)] [wx_mod] false [] nobind [] [] [] [] 0 [] None [("loc", SNone)] [("loc", SNone)] None None
    (MkScr (Some [vx_a; vx_c; vx_far]) []).
Definition lx_run := exec undisturbed 20 (start vision_oracle MRetrieve "loc" 0 (CChunk lx_request) nobind 1) lx_state.
Lemma lx_runs : runs rely (start vision_oracle MRetrieve "loc" 0 (CChunk lx_request) nobind 1) lx_state (fst lx_run) FDone.
Proof.
  replace FDone with (snd lx_run) by (vm_compute; reflexivity). apply exec_runs, undisturbed_rely.
Qed.
Lemma lx_searchable_in s : wreg (sw s) = init_registry -> (exists b, nth_error (bufs (sw s)) 0 = Some b /\ bkind b = KLocation) ->
  xstim (sscreen s) = Some [vx_a; vx_c; vx_far] -> searchable s 0.
Proof.
  intros R K X. split; [rewrite R; exact init_ok|]. split; [exact K|]. intros l E. rewrite X in E. injection E as <-.
  apply all_objs. repeat constructor; repeat eexists.
Qed.
Lemma lx_searchable : searchable lx_state 0.
Proof. apply lx_searchable_in; [reflexivity|eexists; split; reflexivity|reflexivity]. Qed.
Lemma lx_steps h : In h (fst lx_run) -> searchable (hbefore h) 0.
Proof.
  intros H. assert (E : forall g, In g (map (fun h => (wreg (sw (hbefore h)), map bkind (bufs (sw (hbefore h))), xstim (sscreen (hbefore h)))) (fst lx_run)) ->
    g = (init_registry, [KLocation], Some [vx_a; vx_c; vx_far])).
  { intros g. match goal with |- In g ?l -> _ => let v := eval vm_compute in l in replace l with v by (vm_compute; reflexivity) end.
    intros Hg. repeat (destruct Hg as [Hg|Hg]; [rewrite <- Hg; vm_compute; reflexivity|]). destruct Hg. }
  specialize (E _ (in_map _ _ _ H)). cbv beta in E.
  injection E as E1 E2 E3. apply lx_searchable_in; [exact E1| |exact E3].
  destruct (bufs (sw (hbefore h))) as [|b l]; [discriminate|]. exists b. split; [reflexivity|]. injection E2 as E2 _. exact E2.
Qed.
