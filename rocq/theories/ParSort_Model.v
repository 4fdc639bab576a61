(** ParSort_Model.v - the parallel merge tree of src/atop/sort.cpp: par_sort and par_amergesort without cutoffs.
    The engine is Threads_Model's index hand-out (WorkMain(item, 8, 7, 1, FALSE), sort.cpp:2054, 2171); while a thread is
    inside its callback it executes a program one memory access, or one InterlockedOr, per step, so callbacks of
    different threads interleave freely.  Memory is x86-TSO: see the machine with store queues below.
    Simplification: a block a callback allocates for itself (mergesort_, 964; string sorts) is a block of its own,
    never one another callback has freed. *)
From Verif Require Import Base Threads_Model Sort_Model SortCmp_Model Jobs_Model.

Section Machine.
  Context {T : Type}.

  Inductive tprog : Type :=
  | TRd (x : Z) (k : T -> tprog)
  | TWr (x : Z) (v : T) (k : tprog)
  | TBuddy (l : nat) (i : Z) (yes no : tprog)   (* if (IsBuddyBitSet(i, &Level[l])) yes else no *)
  | TDone
  | TBad.                                       (* undefined behaviour, or a loop that does not end *)

  (** run [p], then [k] *)
  Fixpoint lift (p : prog T unit) (k : tprog) : tprog :=
    match p with
    | Ret _ => k
    | Rd x f => TRd x (fun v => lift (f v) k)
    | Wr x v f => TWr x v (lift f k)
    | Crash | Diverge => TBad
    end.

  (** IsBuddyBitSet, 1590-1609: the mask after the InterlockedOr, and the answer *)
  Definition buddy_mask (i : Z) : Z := if Z.odd i then Z.shiftl 1 (i - 1) else Z.shiftl 1 (i + 1).
  Definition IsBuddyBitSet (i mask : Z) : Z * bool :=
    (Z.lor mask (Z.shiftl 1 i), buddy_mask i =? Z.land mask (buddy_mask i)).

  (** the step-one sort of part i, and the step-two merge of node i of level l *)
  Variables (leaf : Z -> prog T unit) (merge : nat -> Z -> prog T unit).

  (** 1723-1760 and 1818-1850: the nested ifs, [d] levels to go *)
  Fixpoint climb (d l : nat) (i : Z) : tprog :=
    match d with
    | O => TDone
    | S d => TBuddy l i (lift (merge (S l) (i / 2)) (climb d (S l) (i / 2))) TDone
    end.
  Definition NumLevels : nat := 3.
  Definition NumCores : Z := 8.
  Definition part_callback (K : nat) (i : Z) : tprog := lift (leaf i) (climb K 0 i).

  Record pstate := mkP {
    pc : cstate;                (* the engine *)
    pm : Z -> T;                (* memory *)
    plev : nat -> Z;            (* Level[], 1464 *)
    pp : Z -> tprog;            (* what is left of the callback on each core *)
    plog : list (nat * Z)       (* history: merges begun, as (level, node) *)
  }.

  Definition pstep (K : nat) (c : Z) (s : pstate) : pstate :=
    let engine :=
      let cs := cstep IndexMode c (pc s) in
      match cpcs cs c with
      | CWork st _ _ => mkP cs (pm s) (plev s) (zupd (pp s) c (part_callback K st)) (plog s)
      | _ => mkP cs (pm s) (plev s) (pp s) (plog s)
      end in
    match cpcs (pc s) c with
    | CWork _ _ _ =>
        match pp s c with
        | TRd x k => mkP (pc s) (pm s) (plev s) (zupd (pp s) c (k (pm s x))) (plog s)
        | TWr x v k => mkP (pc s) (zupd (pm s) x v) (plev s) (zupd (pp s) c k) (plog s)
        | TBuddy l i yes no =>
            let (mask, b) := IsBuddyBitSet i (plev s l) in
            let lev := fun l' => if Nat.eqb l' l then mask else plev s l' in
            if b : bool then mkP (pc s) (pm s) lev (zupd (pp s) c yes) (plog s ++ [(S l, i / 2)])
            else mkP (pc s) (pm s) lev (zupd (pp s) c no) (plog s)
        | TDone => engine
        | TBad => s
        end
    | _ => engine
    end.

  (** runs without store queues (used in the proofs only) *)
  Definition srun (K : nat) (s : pstate) (sched : list Z) : pstate := fold_left (fun s c => pstep K c s) sched s.

  (** The same machine with store queues (x86-TSO): every core has a queue of stores that have not reached memory; it sees its own
      stores at once, the others see them when they are committed, oldest first.  A locked instruction - the InterlockedOr of
      IsBuddyBitSet (1603), InterlockedIncrement64 of BlockNext and BlocksCompleted (threads.h:271-280, 260-266) - waits until the
      core's queue is empty. *)
  Record qstate := mkQ { qs : pstate; qbuf : Z -> list (Z * T) }.
  Fixpoint newest (l : list (Z * T)) (x : Z) : option T :=
    match l with
    | [] => None
    | (y, v) :: l' => match newest l' x with Some w => Some w | None => if x =? y then Some v else None end
    end.
  Definition with_pp (s : pstate) (c : Z) (p : tprog) : pstate := mkP (pc s) (pm s) (plev s) (zupd (pp s) c p) (plog s).
  Definition qthread (K : nat) (c : Z) (t : qstate) : qstate :=
    let s := qs t in
    let plain := mkQ (pstep K c s) (qbuf t) in
    let locked := match qbuf t c with [] => plain | _ => t end in
    match cpcs (pc s) c with
    | CWork _ _ _ =>
        match pp s c with
        | TRd x k => mkQ (with_pp s c (k (match newest (qbuf t c) x with Some v => v | None => pm s x end))) (qbuf t)
        | TWr x v k => mkQ (with_pp s c k) (zupd (qbuf t) c (qbuf t c ++ [(x, v)]))
        | TBuddy _ _ _ _ => locked
        | _ => plain
        end
    | CDraw | CFinish _ => locked
    | _ => plain
    end.
  (** memory takes the oldest store of core [c] *)
  Definition qcommit (c : Z) (t : qstate) : qstate :=
    match qbuf t c with
    | [] => t
    | (x, v) :: l => let s := qs t in mkQ (mkP (pc s) (zupd (pm s) x v) (plev s) (pp s) (plog s)) (zupd (qbuf t) c l)
    end.
  (** a schedule is a list of events: 2c - core c makes a step; 2c+1 - a store of core c is committed *)
  Definition qevent (K : nat) (e : Z) (t : qstate) : qstate := if Z.even e then qthread K (e / 2) t else qcommit (e / 2) t.
  Definition qrun (K : nat) (t : qstate) (sched : list Z) : qstate := fold_left (fun t e => qevent K e t) sched t.
  (** the state after [sched]: engine, memory (the committed stores), Level[], callbacks, merges begun *)
  Definition prun (K : nat) (s : pstate) (sched : list Z) : pstate := qs (qrun K (mkQ s (fun _ => [])) sched).

  (** WorkMain(pWorkItem, parts, wakeup, 1, FALSE); Level[] cleared (1496-1498) *)
  Definition pstart (parts wakeup : Z) (zz : bool) (m : Z -> T) : pstate :=
    mkP (cstart IndexMode parts wakeup zz) m (fun _ => 0) (fun _ => TDone) [].
End Machine.
Arguments tprog : clear implicits.
Arguments pstate : clear implicits.
Arguments qstate : clear implicits.

(** MERGE_SPLITTER::SetLevels(n, 8), 1469-1526 (the only value it is called with: 2009, 2141) *)
Definition EndPositions (n : Z) (k : Z) : Z :=
  let E8 := n in
  let E4 := n / 2 in
  let E6 := E4 + (n - E4) / 2 in
  let E2 := 0 + (E4 - 0) / 2 in
  let E7 := E6 + (n - E6) / 2 in
  let E5 := E4 + (E6 - E4) / 2 in
  let E3 := E2 + (E4 - E2) / 2 in
  let E1 := 0 + (E2 - 0) / 2 in
  if k =? 0 then 0 else if k =? 1 then E1 else if k =? 2 then E2 else if k =? 3 then E3 else if k =? 4 then E4
  else if k =? 5 then E5 else if k =? 6 then E6 else if k =? 7 then E7 else E8.
(** 2014, 2149 *)
Definition AllocChunk (n : Z) : Z := n / (NumCores * 2) + 1.

(** first element, length and workspace offset of node i of level l: 1700-1702, 1718, 1727-1731, 1741-1745, and for the
    last merge (0, ArrayLength, pWorkSpace) at 1756, 1849 *)
Definition node_first (n : Z) (l : nat) (i : Z) : Z := EndPositions n (i * 2 ^ Z.of_nat l).
Definition node_size (n : Z) (l : nat) (i : Z) : Z :=
  if Nat.eqb l NumLevels then n else EndPositions n ((i + 1) * 2 ^ Z.of_nat l) - EndPositions n (i * 2 ^ Z.of_nat l).
Definition node_ws (n : Z) (l : nat) (i : Z) : Z := if Nat.eqb l NumLevels then 0 else i * 2 ^ Z.of_nat l * AllocChunk n.

Section Sorts.
  Context {T : Type}.
  Variables (F : nat) (LT : T -> T -> option bool) (LE : T -> T -> bool) (isnan : T -> bool) (mode : sort_mode).

  (** step two, in place: SortCallbackTwo = ParInPlaceMerge at pData + pFirst; indirect: MergeCallbackTwo = ParMergeMerge *)
  Definition merge_node (dst pw n : Z) (l : nat) (i : Z) : prog T unit :=
    par_merge F LT (dst + node_first n l i) (node_size n l i) (pw + node_ws n l i).

  (** step one in place, 1806-1816: copy the part when source and destination differ, then sort it. [lw]: the blocks the
      callbacks allocate for themselves *)
  Definition sort_leaf (src dst lw n : Z) (i : Z) : prog T unit :=
    let first := node_first n 0 i in
    let size := node_size n 0 i in
    (if src =? dst then Ret tt else memcpy F (dst + first) (src + first) size) ;;
    sort_in_place F LT LE isnan mode (dst + first) size (lw + node_ws n 0 i).

  (** par_sort, threaded (2136-2178), for a contiguous source: the state after [sched], [wakeup] workers woken *)
  Definition par_sort src dst lw pw n (wakeup : Z) (zz : bool) (m : Z -> T) (sched : list Z) : pstate T :=
    prun (sort_leaf src dst lw n) (merge_node dst pw n) NumLevels (pstart NumCores wakeup zz m) sched.
End Sorts.

(** step one, indirect: 1700-1714, with the part's share of the workspace (1707) *)
Definition argsort_leaf F (mode : sort_mode) (col : column) (start pw n : Z) (i : Z) : prog Z unit :=
  sort_index F mode col (start + node_first n 0 i) (node_size n 0 i) (pw + node_ws n 0 i).
(** par_amergesort without cutoffs, threaded (2006-2059), for a column that is not a string (default case, 2042) *)
Definition par_argsort F mode col (start pw n : Z) (wakeup : Z) (zz : bool) (m : Z -> Z) (sched : list Z) : pstate Z :=
  prun (argsort_leaf F mode col start pw n) (merge_node F (lt_at col) start pw n) NumLevels (pstart NumCores wakeup zz m) sched.

(** ** par_amergesort with cutoffs (1934-2004), lexsort's cutoffs= argument *)
(** 1969-1977: first row of partition t *)
Definition part_start (cut : Z -> Z) (t : Z) : Z := if t =? 0 then 0 else cut (t - 1).
(** 1983-1988: the key pointer is shifted to the partition, so index values count from the partition's start *)
Definition shift_col (ps : Z) (c : column) : column :=
  {| is_string := is_string c; lt_at := fun a b => lt_at c (ps + a) (ps + b); rawlt_at := fun a b => rawlt_at c (ps + a) (ps + b) |}.
(** lambdaPSCallback (1964-1996) calling single_amergesort (1876-1912): always the merge sort, whatever the kind;
    [lw t] is the workspace it allocates *)
Definition cutoff_leaf F (col : column) (cut : Z -> Z) (start : Z) (lw : Z -> Z) (t : Z) : prog Z unit :=
  let ps := part_start cut t in
  sort_index F MERGE (shift_col ps col) (start + ps) (cut t - ps) (lw t).
(** DoMultiThreadedWork(cutOffLength, ...), threaded *)
Definition par_cutoffs F col cut start lw (parts wakeup : Z) (zz : bool) (m : Z -> Z) (sched : list Z) : pstate Z :=
  prun (cutoff_leaf F col cut start lw) (fun _ _ => Ret tt) 0 (pstart parts wakeup zz m) sched.
(** and without a work item (threads.h:974-978) *)
Definition seq_cutoffs F col cut start lw (parts : Z) : prog Z unit :=
  fold_right (fun t p => cutoff_leaf F col cut start lw t ;; p) (Ret tt) (zrange 0 parts).

(** ** lexsort: the loop over the columns (sorting.cpp:470-481), each column sorted by the caller alone or on threads *)
Definition column_call F mode (c : column) (start pw n : Z) (h : how) (m m' : Z -> Z) : Prop :=
  match h with
  | Alone => exec (fun _ => true) (sort_index F mode c start n pw) m = Finished tt m'
  | Threaded T zz sched =>
      (* GetWorkItem gives a work item only for WORK_ITEM_BIG or more rows, threads.h:1056-1061 *)
      WORK_ITEM_BIG <= n /\ 0 <= T /\
      let s := par_argsort F mode c start pw n T zz m sched in cpcs (pc s) 0 = CReturned /\ m' = pm s
  end.
Fixpoint columns_call F mode (cols : list (column * how)) (start pw n : Z) (m m' : Z -> Z) : Prop :=
  match cols with
  | [] => m' = m
  | (c, h) :: cols => exists m1, column_call F mode c start pw n h m m1 /\ columns_call F mode cols start pw n m1 m'
  end.
