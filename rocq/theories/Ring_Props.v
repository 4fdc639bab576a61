(** Ring_Props.v - property C07 (consecutive operations do not disturb each other). *)
From Verif Require Import Base Threads_Model Threads_Proofs Threads_Props Ring_Model Ring_Proofs.

(** The full property is FALSE of the code.  Two calls of 65536 elements (4 chunks each) with one worker: the worker
    tests the pool during call 1 and is delayed; the caller finishes call 1 and starts filling the next ring slot; the worker fetches
    that slot half filled and draws from a channel counter that the caller then resets to 0.  Call 2 RETURNS although
    chunk 3 was never computed, and chunk 1 was computed twice. *)
Definition C07_schedule : list Z :=
  repeat 0 20 ++ [1] ++ repeat 0 35 ++ repeat 1 4 ++ repeat 0 11 ++ repeat 1 12 ++ repeat 0 27.

Theorem C07_consecutive_calls_refuted :
  exists sched,
    let s := rrun (fun _ => 65536) (fun _ => 1) ring_init sched in
    In 2 (returned s) /\
    ~ In (2, 3) (rlog s) /\                                        (* chunk 3 of call 2 missing *)
    exists l1 l2 l3, rlog s = l1 ++ [(2, 1)] ++ l2 ++ [(2, 1)] ++ l3.  (* chunk 1 done twice *)
Proof.
  exists C07_schedule. cbv zeta.
  assert (E : returned (rrun (fun _ => 65536) (fun _ => 1) ring_init C07_schedule) = [1; 2] /\
    rlog (rrun (fun _ => 65536) (fun _ => 1) ring_init C07_schedule)
      = [(1, 0); (1, 2); (1, 1); (1, 3); (2, 1); (2, 1); (2, 0); (2, 2)]) by (vm_compute; auto).
  destruct E as [E1 E2]. rewrite E1, E2. split; [simpl; auto|]. split.
  - simpl. intros H. repeat (destruct H as [H|H]; [discriminate|]). exact H.
  - exists [(1, 0); (1, 2); (1, 1); (1, 3)], [], [(2, 0); (2, 2)]. reflexivity.
Qed.
Print Assumptions C07_consecutive_calls_refuted.

(** Proved part: if every worker fetched its slot while the call it belongs to was running, then in any history of
    calls, with workers of earlier calls stepping on at any time (even during later calls), memory after the newest call has
    returned is what the calls would have produced one after the other, unthreaded.  Missing: workers that fetch a slot
    between calls (the defect above), and a worker delayed by 1024 or more calls. *)
Theorem C07_late_workers_harmless_partial :
  forall {V} (m0 : Z -> V) (events : list (hevent V)),
    (forall c, In (EStart c) events -> 0 <= c_n c /\ 0 <= c_T c /\ no_cross_overlap (c_u c) (c_n c)) ->
    let h := hrun (hinit m0) events in
    forall newest s older, hcalls h = (newest, s) :: older ->
      pcs s 0 = Returned ->
      (forall a, hmem h a = fold_right (fun c m => seq_loop (c_u c) (c_n c) m) m0 (map fst (hcalls h)) a) /\
      (forall e, occ e (log s) = if (0 <=? e) && (e <? c_n newest) then 1 else 0).
Proof.
  intros V m0 events Hok h newest s older Hc Hr.
  assert (I : HInv m0 h).
  { apply hrun_inv; [|reflexivity]. apply Forall_forall. intros [c|j core] Hin; [exact (Hok c Hin)|exact Logic.I]. }
  unfold HInv in I. rewrite Hc in I. destruct I as (Hc1 & Hf & mprev & sched & Hs & Hm).
  assert (Hr' : pcs (run (c_u newest) (start (c_n newest) (c_T newest) (c_zz newest) mprev) sched) 0 = Returned)
    by (rewrite <- Hs; exact Hr).
  split.
  - intros a. rewrite Hc. simpl. change (hmem h) with (mem (with_mem s (hmem h))). rewrite Hs.
    rewrite returned_mem by assumption. apply seq_loop_ext. intros a'. rewrite Hm.
    assert (X : forall l, after_calls l m0 = fold_right (fun c m => seq_loop (c_u c) (c_n c) m) m0 l).
    { induction l as [|c l IH]; [reflexivity|]. simpl. rewrite IH. reflexivity. }
    rewrite X. reflexivity.
  - intros e. change (log s) with (log (with_mem s (hmem h))). rewrite Hs.
    destruct Hc1 as (H1 & H2 & H3).
    exact (proj2 (C01_exactly_once (c_u newest) (c_n newest) (c_T newest) (c_zz newest) mprev sched H1 H2) Hr' e).
Qed.
Print Assumptions C07_late_workers_harmless_partial.

(** two in-place calls of 40000 elements with 2 workers; worker 2 keeps stepping in call 1 during call 2; both return *)
Definition C07_call : call Z := mkCall Z (mkUfunc Z 4096 0 4096 8 0 8 (fun x y => x + y)) 40000 2 true.
Definition C07_events (ds : list Z) : list (hevent Z) :=
  [EStart C07_call] ++ map (EStep 0) ds ++ [EStart C07_call; EStep 1 2] ++ map (EStep 0) ds.

Lemma C07_two_calls ds :
  (forall m, pcs (run (c_u C07_call) (start 40000 2 true m) ds) 0 = Returned) ->
  exists s1 s2, hcalls (hrun (hinit (fun a => a)) (C07_events ds)) = [(C07_call, s2); (C07_call, s1)] /\
    pcs s2 0 = Returned.
Proof.
  intros R.
  unfold C07_events, hrun. rewrite !fold_left_app.
  change (fold_left hstep [EStart C07_call] (hinit (fun a => a)))
    with (mkH (mem (start 40000 2 true (fun a : Z => a))) [(C07_call, start 40000 2 true (fun a : Z => a))]).
  fold (hrun (mkH (mem (start 40000 2 true (fun a : Z => a))) [(C07_call, start 40000 2 true (fun a : Z => a))])
     (map (EStep 0) ds)).
  rewrite hrun_newest.
  pose proof (R (fun a => a)) as R1.
  destruct (reach_inv (c_u C07_call) 40000 2 true ltac:(lia) (fun a => a) ds) as (d & b & I1).
  set (s1 := run (c_u C07_call) (start 40000 2 true (fun a => a)) ds) in *. clearbody s1.
  destruct (returned_step_mem (c_u C07_call) 40000 2 true ltac:(lia) s1 d b 2 I1 R1) as (E1 & _).
  cbn [fold_left hstep hcalls hmem]. rewrite R1. cbn [is_ret hmem hcalls step_nth].
  rewrite with_mem_self, E1.
  change (c_n C07_call) with 40000. change (c_T C07_call) with 2. change (c_zz C07_call) with true.
  change (mem s1) with (mem (start 40000 2 true (mem s1))) at 1.
  match goal with |- context [fold_left hstep ?l ?h] => change (fold_left hstep l h) with (hrun h l) end.
  rewrite hrun_newest. cbn [hcalls].
  eexists _, _. split; [reflexivity|]. apply R.
Qed.

Example C07_nonvacuous :
  (0 <= c_n C07_call /\ 0 <= c_T C07_call /\ no_cross_overlap (c_u C07_call) (c_n C07_call)) /\
  exists ds s1 s2, hcalls (hrun (hinit (fun a => a)) (C07_events ds)) = [(C07_call, s2); (C07_call, s1)] /\
    pcs s2 0 = Returned.
Proof.
  split.
  { split; [simpl; lia|]. split; [simpl; lia|].
    unfold no_cross_overlap. cbn [c_u c_n C07_call pDataOut pDataIn1 pDataIn2 itemSizeOut itemSizeIn1 itemSizeIn2].
    intros i j Hi Hj Hne. lia. }
  exists (demo_sched 40000 2). apply C07_two_calls. intros m. apply demo_returns; lia.
Qed.
