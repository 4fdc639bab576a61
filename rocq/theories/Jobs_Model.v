(** Jobs_Model.v - what the user callback does while a thread holds a piece.
    Memory is shared through store queues (x86-TSO).  Threads_Model's CounterMachine treats a callback (MTChunkCallback / MTWorkCallback, threads.h:940, 996) as one
    event; here it is a program: a list of micro-operations on the thread's locals and on shared memory, executed one
    per step, so that callbacks of different threads interleave freely. *)
From Verif Require Import Base Threads_Model.

Section Jobs.
  Context {L V : Type}.
  Definition memory := Z -> V.
  (** a micro-operation: from the locals and the memory the thread sees, the new locals and at most one store *)
  Definition micro := L -> memory -> L * option (Z * V).
  Definition stored (m : memory) (o : option (Z * V)) : memory := match o with None => m | Some (a, v) => zupd m a v end.
  (** its effect when the store takes place at once *)
  Definition do_op (op : micro) (l : L) (m : memory) : L * memory := let r := op l m in (fst r, stored m (snd r)).

  (** [prog st len]: the callback invoked as callback(arg, core, start=st, length=len);
      [l0]: the callback's locals on entry *)
  Variables (prog : Z -> Z -> list micro) (l0 : L) (md : mode).

  (** The shared memory of x86 (x86-TSO): every thread has a queue of stores that have not reached memory; it sees its own
      stores at once, the others see them when they are committed, oldest first.  A locked instruction waits until the
      thread's queue is empty. *)
  Record jstate := mkJ {
    jc : cstate;             (* the engine *)
    jm : memory;
    jbuf : Z -> list (Z * V);  (* store queues, oldest first *)
    jloc : Z -> L;           (* locals of the callback running on each core *)
    jrem : Z -> list micro   (* what is left of it *)
  }.
  Definition overlay (b : list (Z * V)) (m : memory) : memory := fold_left (fun m av => zupd m (fst av) (snd av)) b m.
  Definition view (s : jstate) (c : Z) : memory := overlay (jbuf s c) (jm s).

  (** the engine steps that are locked instructions: InterlockedIncrement64 of BlockNext (GetNextWorkIndex, threads.h:271-280,
      GetNextWorkBlock) and of BlocksCompleted (CompleteWorkBlock, 260-266) *)
  Definition locked (pc : cpc) : bool := match pc with CDraw | CFinish _ => true | _ => false end.

  Definition jthread (c : Z) (s : jstate) : jstate :=
    match cpcs (jc s) c, jrem s c with
    | CWork _ _ _, op :: rest =>
        let r := op (jloc s c) (view s c) in
        mkJ (jc s) (jm s) (zupd (jbuf s) c (jbuf s c ++ match snd r with None => [] | Some av => [av] end))
            (zupd (jloc s) c (fst r)) (zupd (jrem s) c rest)
    | pc, _ =>
        if locked pc && negb (match jbuf s c with [] => true | _ => false end) then s
        else
        let cs' := cstep md c (jc s) in
        match cpcs cs' c with
        | CWork st len _ => mkJ cs' (jm s) (jbuf s) (zupd (jloc s) c l0) (zupd (jrem s) c (prog st len))
        | _ => mkJ cs' (jm s) (jbuf s) (jloc s) (jrem s)
        end
    end.
  (** memory takes the oldest store of core [c] *)
  Definition jcommit (c : Z) (s : jstate) : jstate :=
    match jbuf s c with
    | [] => s
    | (a, v) :: b => mkJ (jc s) (zupd (jm s) a v) (zupd (jbuf s) c b) (jloc s) (jrem s)
    end.
  (** a schedule is a list of events: 2c - core c makes a step; 2c+1 - a store of core c is committed *)
  Definition jstep (e : Z) (s : jstate) : jstate := if Z.even e then jthread (e / 2) s else jcommit (e / 2) s.

  Definition jrun (s : jstate) (sched : list Z) : jstate := fold_left (fun s c => jstep c s) sched s.

  Definition jstart (n T : Z) (zz : bool) (m : memory) : jstate :=
    mkJ (cstart md n T zz) m (fun _ => []) (fun _ => l0) (fun _ => []).

  (** the caller's threaded call has returned, leaving memory [m'] *)
  Definition jreturned (n T : Z) (zz : bool) (m : memory) (sched : list Z) (m' : memory) : Prop :=
    let s := jrun (jstart n T zz m) sched in
    cpcs (jc s) 0 = CReturned /\ jm s = m'.

  (** the callback run by one thread alone, start to end: DoMultiThreadedChunkWork / DoMultiThreadedWork without
      a work item (threads.h:974-978, 1031-1034) *)
  Definition run_ops (ops : list micro) (m : memory) : memory :=
    snd (fold_left (fun lm op => do_op op (fst lm) (snd lm)) ops (l0, m)).
End Jobs.
Arguments memory : clear implicits.
Arguments micro : clear implicits.
Arguments jstate : clear implicits.

(** How one DoMultiThreadedChunkWork / DoMultiThreadedWork call was executed: by the caller alone (GetWorkItem gave no
    work item: too small, threading off, or another thread holds the work item), or threaded with T workers. *)
Inductive how := Alone | Threaded (T : Z) (zz : bool) (sched : list Z).
Definition is_threaded (h : how) : bool := match h with Alone => false | Threaded _ _ _ => true end.

(** threads.h:1013-1035, 1056-1061: the call has returned and memory went from [m] to [m'] *)
Definition chunk_call {L V} (prog : Z -> Z -> list (micro L V)) (l0 : L) (n : Z) (h : how) (m m' : memory V) : Prop :=
  match h with
  | Alone => m' = run_ops l0 (prog 0 n) m
  | Threaded T zz sched => WORK_ITEM_BIG <= n /\ 0 <= T /\ jreturned prog l0 ChunkMode n T zz m sched m'
  end.

(** A callback that only stores constants (its inputs do not change while it runs): a list of (address, value) stores. *)
Definition wr {V} (av : Z * V) : micro unit V := fun l m => (l, Some av).
Definition wprog {V} (ws : Z -> Z -> list (Z * V)) (st len : Z) : list (micro unit V) := map wr (ws st len).

(** threads.h:953-979: DoMultiThreadedWork; callback [cb i] for i = 0..n-1 *)
Definition index_call {L V} (cb : Z -> list (micro L V)) (l0 : L) (n : Z) (h : how) (m m' : memory V) : Prop :=
  match h with
  | Alone => m' = fold_left (fun m i => run_ops l0 (cb i) m) (zrange 0 n) m
  | Threaded T zz sched => 0 <= T /\ jreturned (fun st _ => cb st) l0 IndexMode n T zz m sched m'
  end.
