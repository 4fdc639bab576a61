(** Sleep_Props.v - property C06 (index-callback operations always return).
    Reading guide: [sstart md n t zz woken] is a threaded call on [n] items that wakes [t] workers, the kernel having woken
    exactly the threads c with [woken c]; [wake_choice W t woken] says this is a choice FUTEX_WAKE may make when
    there are [W] worker threads; [srun] runs a schedule (list of thread numbers, 0 = the caller).
    A fair schedule is a concatenation of rounds in each of which every thread 0..t moves at least once. *)
From Verif Require Import Base Threads_Model Threads_Proofs Threads_Counter_Proofs Threads_Props Sleep_Model Sleep_Proofs.

Definition fair (t : Z) (rounds : list (list Z)) : Prop :=
  forall r, In r rounds -> (forall c, In c r -> 0 <= c) /\ (forall c, 0 <= c <= t -> In c r).

(** Full property (FALSE, see the two _refuted theorems): for every machine and setting, every call returns under
    every fair schedule.  Proved part: it does whenever the call wakes two or more workers. *)
Theorem C06_index_calls_return_partial :
  forall (n t W : Z) (zz : bool) (woken : Z -> bool) (rounds : list (list Z)),
    0 <= n -> 2 <= t -> t + 1 <= W -> wake_choice W t woken ->
    fair t rounds -> 8 * (n + 1) + 6 + 7 * t < Z.of_nat (length rounds) ->
    cpcs (base (srun IndexMode (sstart IndexMode n t zz woken) (concat rounds))) 0 = CReturned.
Proof.
  intros n t W zz woken rounds Hn Ht HW Hw Hf Hlen.
  destruct (entitled_woken W t woken Ht HW Hw) as (a & Ha & Hwa).
  apply (fair_rounds IndexMode n t Hn ltac:(lia) a).
  - intros _. exact Ha.
  - exact Hf.
  - apply sinv_start; try lia. intros _. split; [lia|exact Hwa].
  - pose proof (M_start IndexMode n t zz Hn ltac:(lia) woken) as HM. cbn [w0 tgt] in HM. lia.
Qed.
Print Assumptions C06_index_calls_return_partial.

(** Operations split by start/length pieces return whatever the kernel wakes, even nobody. *)
Theorem C06_chunk_calls_return :
  forall (n t : Z) (zz : bool) (woken : Z -> bool) (rounds : list (list Z)),
    0 <= n -> 0 <= t ->
    fair t rounds -> 8 * ((n + 16383) / 16384) + 6 + 7 * t < Z.of_nat (length rounds) ->
    cpcs (base (srun ChunkMode (sstart ChunkMode n t zz woken) (concat rounds))) 0 = CReturned.
Proof.
  intros n t zz woken rounds Hn Ht Hf Hlen.
  apply (fair_rounds ChunkMode n t Hn ltac:(lia) 0).
  - discriminate.
  - exact Hf.
  - apply sinv_start; try lia. discriminate.
  - pose proof (M_start ChunkMode n t zz Hn ltac:(lia) woken) as HM. cbn [w0 tgt] in HM.
    unfold BL, CH, WORK_ITEM_CHUNK in HM. replace (n + (16384 - 1)) with (n + 16383) in HM by lia. lia.
Qed.
Print Assumptions C06_chunk_calls_return.

(** On a one-CPU machine, whatever thread_setworkers was told, an index-callback call on 1 or more items never returns:
    in every schedule, even an infinite one. *)
Theorem C06_one_cpu_refuted :
  forall (n asked : Z) (requests : list Z) (zz : bool) (woken : Z -> bool) (sched : list Z),
    1 <= n ->
    let t := effective_wakeup (wakeup_after 1 requests) asked in
    cpcs (base (srun IndexMode (sstart IndexMode n t zz woken) sched)) 0 <> CReturned.
Proof.
  intros n asked requests zz woken sched Hn t.
  assert (Ht : t <= 0).
  { unfold t, effective_wakeup. pose proof (wakeup_after_bounds 1 requests ltac:(lia)) as H.
    change (GetProcCount 1) with 1 in H. destruct (asked <=? 0) eqn:E; [lia|]. destruct (Z.ltb_spec asked (wakeup_after 1 requests)); lia. }
  apply never_returns; [exact Hn|]. intros c Hc. lia.
Qed.
Print Assumptions C06_one_cpu_refuted.

(** With the worker count set to 1 on a machine with two or more workers (the default on two CPUs), the kernel may
    wake core 2, which is not entitled to the work; then the call never returns in any schedule. *)
Theorem C06_wrong_worker_refuted :
  forall (n W : Z) (zz : bool), 1 <= n -> 2 <= W ->
  exists woken, wake_choice W 1 woken /\
    forall sched, cpcs (base (srun IndexMode (sstart IndexMode n 1 zz woken) sched)) 0 <> CReturned.
Proof.
  intros n W zz Hn HW. exists (fun c => c =? 2). split; [apply wake_wrong_core, HW|].
  intros sched. apply never_returns; [exact Hn|]. intros c Hc. lia.
Qed.
Print Assumptions C06_wrong_worker_refuted.

Example C06_settings :
  wakeup_after 2 [] = 1 /\ wakeup_after 8 [1] = 1 /\ wakeup_after 1 [5; 7] = 0 /\ wakeup_after 4 [] = 3.
Proof. vm_compute. auto. Qed.

(** the hypotheses of the positive theorem are met: 4 CPUs, 3 woken, 100 items *)
Example C06_nonvacuous :
  exists woken rounds, wake_choice 4 3 woken /\ fair 3 rounds /\
    8 * (100 + 1) + 6 + 7 * 3 < Z.of_nat (length rounds).
Proof.
  exists (fun c => (1 <=? c) && (c <=? 3)), (repeat [3; 0; 2; 1] (Z.to_nat 900)). split; [|split].
  - split.
    + intros c Hc. assert (Hc' : c = 1 \/ c = 2 \/ c = 3) by lia.
      destruct Hc' as [->|[->| ->]]; (split; [lia|left; reflexivity]).
    + intros p k [[= <- <-]|[]]. reflexivity.
  - intros r Hr. apply repeat_spec in Hr. subst r. split.
    + intros c Hc. simpl in Hc. lia.
    + intros c Hc. simpl. lia.
  - rewrite repeat_length. lia.
Qed.
