(** Ring_Fine_Props.v - property C07 on the fine-grained ring machine: the only way one call can disturb another is a worker that holds a
    ring slot while the caller fills it. *)
From Verif Require Import Base Threads_Model Ring_Model Ring_Fine.

(** In any history of threaded calls of any lengths, with any number of workers woken, under any interleaving of the single shared accesses, and
    with workers of earlier calls running on for any number of later calls: if at no moment a worker other than the caller has fetched the very ring slot
    the caller is between GetWorkItem and SetWorkItem on, then every call that has returned processed each of its blocks exactly once and
    nothing else, and stays so.  Together with [C07_consecutive_calls_refuted] (which exhibits such a fetch) this says the half-filled
    slot is the only cause.  Missing from the full property: the histories with such a fetch, where it is false. *)
Theorem C07_exactly_once_without_intruder_partial :
  forall (clen cwake : Z -> Z) (sched : list Z),
    (forall k, 0 <= clen k) -> (forall k, 0 <= cwake k) -> Forall (fun c => 0 <= c) sched ->
    (forall i, no_intruder (rrun clen cwake ring_init (firstn i sched))) ->
    let s := rrun clen cwake ring_init sched in
    forall k, In k (returned s) ->
    forall lb, times k lb (rlog s) = if (0 <=? lb) && (lb <? blocks (clen k)) then 1 else 0.
Proof.
  intros clen cwake sched Hl Hw HF NI s k Hk lb.
  pose proof (run_inv clen cwake Hl Hw sched HF NI) as G. fold s in G.
  apply (G_old clen cwake s G). apply (G_ret clen cwake s G). exact Hk.
Qed.
Print Assumptions C07_exactly_once_without_intruder_partial.

(** and no block of a call is ever processed before the call or twice while it runs *)
Theorem C07_never_twice_without_intruder_partial :
  forall (clen cwake : Z -> Z) (sched : list Z),
    (forall k, 0 <= clen k) -> (forall k, 0 <= cwake k) -> Forall (fun c => 0 <= c) sched ->
    (forall i, no_intruder (rrun clen cwake ring_init (firstn i sched))) ->
    let s := rrun clen cwake ring_init sched in
    forall k lb, 1 <= k -> times k lb (rlog s) <= 1 /\
      (times k lb (rlog s) = 1 -> k <= call_no s /\ 0 <= lb < blocks (clen k)).
Proof.
  intros clen cwake sched Hl Hw HF NI s k lb K1.
  pose proof (run_inv clen cwake Hl Hw sched HF NI) as G. fold s in G.
  destruct (Z.lt_trichotomy k (call_no s)) as [L|[->|L]].
  - rewrite (G_old clen cwake s G k lb ltac:(lia)). unfold valid.
    destruct (Z.leb_spec 0 lb), (Z.ltb_spec lb (blocks (clen k))); cbn [andb]; lia.
  - destruct (mainpc s) eqn:E; try (rewrite (G_new clen cwake s G); [lia|right; split; [reflexivity|rewrite E; tauto]]).
    all: assert (U : usable s (here s)) by (split; [rewrite (G_cur clen cwake s G); [|rewrite E; discriminate|]; pose proof (G_idx clen cwake s G) as Ix; pose proof (G_no clen cwake s G); rewrite E in Ix; lia|rewrite E; intros [X _]; discriminate]).
    all: destruct (G_slot clen cwake s G (here s) U) as (_ & _ & P & R & _).
    all: assert (Ea : slotArg s (here s) = call_no s) by (rewrite (G_cur clen cwake s G); [|rewrite E; discriminate|]; pose proof (G_idx clen cwake s G) as Ix; pose proof (G_no clen cwake s G); rewrite E in Ix; lia).
    all: rewrite Ea in R; rewrite (R_log _ _ _ _ _ _ _ R).
    all: destruct (Z.leb_spec 0 lb), (Z.ltb_spec lb (blocks (clen (call_no s)))); cbn [andb]; try lia; destruct (P lb); cbn [seen]; lia.
  - rewrite (G_new clen cwake s G); [lia|left; lia].
Qed.
Print Assumptions C07_never_twice_without_intruder_partial.

(** non-vacuity: two calls of four blocks with one worker.  The worker takes part in call 1, runs on in call 1's slot while the caller
    fills and publishes call 2's slot, then takes part in call 2; no state has an intruder and both calls return *)
Definition fine_demo : list Z :=
  repeat 0 15 ++ repeat 1 9 ++ repeat 0 6 ++ repeat 1 7 ++ repeat 0 30 ++ [1] ++ repeat 0 1 ++ repeat 1 3 ++ repeat 0 15 ++ repeat 1 20 ++ repeat 0 10.

Lemma unscheduled_idle clen cwake sched c : ~ In c sched -> wpc (rrun clen cwake ring_init sched) c = RTop.
Proof.
  induction sched as [|d sched IH] using rev_ind; intros N; [reflexivity|].
  rewrite in_app_iff in N. unfold rrun in *. rewrite fold_left_app. cbn [fold_left].
  rewrite <- IH by tauto. set (s := fold_left _ sched ring_init) in *. assert (c <> d) by (intros ->; apply N; right; left; reflexivity).
  assert (T : forall core sl arg t, wpc (fst (tstep s core sl arg t)) = wpc s)
    by (intros; destruct t; cbn [tstep]; try reflexivity; destruct (_ <? _); reflexivity).
  unfold rstep. destruct (d =? 0).
  - unfold mstep. destruct (mainpc s); try reflexivity; try (destruct (_ <? _); reflexivity).
    destruct t; try reflexivity; lazymatch goal with |- context [tstep ?a ?b ?e ?f ?g] =>
      specialize (T b e f g); destruct (tstep a b e f g) as [s' t']; cbn [fst] in T; cbn [wpc set_main]; rewrite T; reflexivity end.
  - unfold wstep. destruct (wpc s d); try (cbn [wpc set_worker]; apply zupd_neq; assumption).
    + destruct (_ <? _); [cbn [wpc set_worker]; apply zupd_neq; assumption|reflexivity].
    + destruct (_ <=? _); cbn [wpc set_worker]; apply zupd_neq; assumption.
    + destruct t; lazymatch goal with |- context [tstep ?a ?b ?e ?f ?g] =>
      specialize (T b e f g); destruct (tstep a b e f g) as [s' t']; cbn [fst] in T; cbn [wpc set_worker]; rewrite zupd_neq by assumption; rewrite T; reflexivity
      | _ => cbn [wpc set_worker]; apply zupd_neq; assumption end.
Qed.

Definition holdsb (p : rpc) (sl : Z) : bool := match p with REntitled s' | RArg s' | RRun s' _ _ => s' =? sl | _ => false end.

Example C07_exactly_once_nonvacuous :
  let st i := rrun (fun _ => 65536) (fun _ => 1) ring_init (firstn i fine_demo) in
  Forall (fun c => 0 <= c) fine_demo /\ (forall i, no_intruder (st i)) /\
  returned (st (length fine_demo)) = [1; 2] /\
  (* the worker did part of each call, and was still inside call 1 while call 2 was being filled *)
  (exists i arg t, wpc (st i) 1 = RRun 1 arg t /\ filling (mainpc (st i)) = true /\ call_no (st i) = 2) /\
  rlog (st (length fine_demo)) = [(1, 1); (1, 0); (1, 3); (1, 2); (2, 0); (2, 2); (2, 1); (2, 3)].
Proof.
  cbv zeta. split; [|split; [|split; [|split]]].
  - apply Forall_forall. intros c Hc. assert (X : forallb (Z.leb 0) fine_demo = true) by (vm_compute; reflexivity).
    rewrite forallb_forall in X. specialize (X c Hc). lia.
  - intros i F c Hc Hh.
    assert (X : forallb (fun j => negb (filling (mainpc (rrun (fun _ => 65536) (fun _ => 1) ring_init (firstn j fine_demo))) &&
                holdsb (wpc (rrun (fun _ => 65536) (fun _ => 1) ring_init (firstn j fine_demo)) 1)
                       (slot_of (MainWorkIndex (rrun (fun _ => 65536) (fun _ => 1) ring_init (firstn j fine_demo))))))
              (seq 0 (S (length fine_demo))) = true) by (vm_compute; reflexivity).
    destruct (Z.eq_dec c 1) as [->|N1].
    + set (j := Nat.min i (length fine_demo)).
      assert (Ej : firstn i fine_demo = firstn j fine_demo).
      { unfold j. destruct (Nat.le_gt_cases i (length fine_demo)); [rewrite Nat.min_l by assumption; reflexivity|].
        rewrite Nat.min_r, firstn_all, firstn_all2 by lia. reflexivity. }
      rewrite Ej in *. rewrite forallb_forall in X. specialize (X j ltac:(apply in_seq; unfold j; lia)). cbv beta in X.
      rewrite F in X. cbn [andb] in X. apply negb_true_iff in X.
      destruct (wpc _ 1); cbn [holds holdsb] in *; try contradiction; apply Z.eqb_neq in X; contradiction.
    + rewrite unscheduled_idle in Hh; [exact Hh|]. intros Hin.
      assert (Y : forallb (fun c => (c =? 0) || (c =? 1)) fine_demo = true) by (vm_compute; reflexivity).
      rewrite forallb_forall in Y. assert (In c fine_demo) by (rewrite <- (firstn_skipn i fine_demo), in_app_iff; left; exact Hin).
      specialize (Y c H). lia.
  - vm_compute. reflexivity.
  - exists 60%nat. eexists _, _. vm_compute. repeat split; reflexivity.
  - vm_compute. reflexivity.
Qed.
