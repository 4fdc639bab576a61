(** Sleep_Model.v - the worker loop with futex sleeping, for one threaded call.

    Extends the shared-counter machine of Threads_Model.v with what each worker thread does around
    DoWork: WorkerThreadFunction, src/atop/threads.cpp:103-170 (Linux branch).
    Model of the futex: FUTEX_WAIT with the value of Pool.WorkIndex it read puts the thread to sleep;
    only a FUTEX_WAKE on that pool wakes it; FUTEX_WAKE k wakes any k of the sleeping threads of
    the pool (all if fewer).  Wakes happen only in SetWorkItem (threads.h:526-556).
    The call starts with all workers asleep.  Not modelled: signals interrupting FUTEX_WAIT. *)
From Verif Require Import Base Threads_Model.

Inductive wst :=
| Asleep              (* in FUTEX_WAIT *)
| Top                 (* top of the while loop, threads.cpp:103 *)
| InWork (did : bool) (* inside DoWork; did = (didSomeWork > 0) *)
| AboutWait.          (* decided to wait, threads.cpp:133 *)

Record sstate := mkS { base : cstate; wk : Z -> wst }.

Section Sleep.
  Variable md : mode.

  Definition wset (s : sstate) (c : Z) (w : wst) : sstate := mkS (base s) (zupd (wk s) c w).

  Definition is_returned (p : cpc) : bool := match p with CReturned => true | _ => false end.

  Definition sstep (c : Z) (s : sstate) : sstate :=
    if c =? 0 then mkS (cstep md 0 (base s)) (wk s)
    else match wk s c with
    | Asleep => s
    | AboutWait => wset s c Asleep                       (* threads.cpp:157: value unchanged, sleep *)
    | Top =>
        (* threads.cpp:107-121: work to do only before CompleteWorkItem, and only for entitled cores *)
        if is_returned (cpcs (base s) 0) then wset s c AboutWait
        else if (1 <=? c) && (c <=? ThreadWakeup (cit (base s)))
             then mkS (cstep md c (base s)) (zupd (wk s) c (InWork false))
             else wset s c AboutWait
    | InWork did =>
        let b := cstep md c (base s) in
        match cpcs b c with
        | CIdle => mkS b (zupd (wk s) c (if did then Top else AboutWait))   (* threads.cpp:131 *)
        | CWork _ _ _ => mkS b (zupd (wk s) c (InWork true))                (* didSomeWork++ *)
        | _ => mkS b (wk s)
        end
    end.

  Definition srun (s : sstate) (sched : list Z) : sstate := fold_left (fun s c => sstep c s) sched s.

  (** [woken c]: worker c is one of the threads FUTEX_WAKE woke at the start of this call. *)
  Definition sstart (len wakeup : Z) (zz : bool) (woken : Z -> bool) : sstate :=
    mkS (cstart md len wakeup zz) (fun c => if woken c then Top else Asleep).
End Sleep.

(** Which wake sets the kernel may choose, for [W] worker threads (cores 1..W) and a call waking [t]:
    in each pool signalled with count k, exactly min(k, threads in the pool) threads wake;
    nobody else does. *)
Definition pool_size (W p : Z) : Z :=
  Z.of_nat (length (filter (fun c => pool_of c =? p) (zrange 1 (W + 1)))).
Definition pool_woken (W p : Z) (woken : Z -> bool) : Z :=
  Z.of_nat (length (filter (fun c => (pool_of c =? p) && woken c) (zrange 1 (W + 1)))).
Definition wake_choice (W t : Z) (woken : Z -> bool) : Prop :=
  (forall c, woken c = true -> 1 <= c <= W /\ In (pool_of c) (map fst (signalled t))) /\
  (forall p k, In (p, k) (signalled t) -> pool_woken W p woken = Z.min k (pool_size W p)).
