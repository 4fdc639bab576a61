(** Ufunc_Model.v - a hooked element-wise ufunc on worker threads, at the level of single byte accesses.
    Threads_Model's channel machine hands out the blocks; while a thread holds a block it runs the replacement loop
    (or NumPy's loop) on that block as a program of single byte loads and stores, so that the loops of different
    threads interleave at every byte.  (The hardware moves up to 32 bytes at a time: those executions are the ones
    where a thread is not interrupted inside an access.)
    Memory is x86-TSO: see the machine with store buffers below.
    Sources: the callbacks BinaryThreadCallbackStrided and BinaryThreadCallbackNumpy, src/pnumpy/_pnumpy.cpp:448-515,
    the call AtopBinaryMathFunction 728-795, the loops src/atop/ops_binary.cpp:345-792. *)
From Verif Require Import Base Threads_Model Jobs_Model Sort_Model Kernel_Model Arith_Model.

Notation bprog := (prog Z).      (* a program over bytes *)

(** ---------- loads, stores and loops as programs ---------- *)
(** load of a T, Kernel_Model.ldn byte by byte *)
Fixpoint ldp (k : nat) (a : Z) : bprog Z :=
  match k with O => Ret 0 | S k' => Rd a (fun b => let! r := ldp k' (a + 1) in Ret (b + 256 * r)) end.
(** store of a T *)
Fixpoint stp (k : nat) (a v : Z) : bprog unit :=
  match k with O => Ret tt | S k' => Wr a (v mod 256) (stp k' (a + 1) (v / 256)) end.
Definition pld (sz : Z) := ldp (Z.to_nat sz).
Definition pst (sz : Z) := stp (Z.to_nat sz).
(** for (i in l) f(i) *)
Fixpoint forp (l : list Z) (f : Z -> bprog unit) : bprog unit :=
  match l with [] => Ret tt | i :: r => f i ;; forp r f end.
Fixpoint mapp {A} (l : list Z) (f : Z -> bprog A) : bprog (list A) :=
  match l with [] => Ret [] | i :: r => let! v := f i in let! vs := mapp r f in Ret (v :: vs) end.
(** LOADU / STOREU *)
Definition ploadv (sz a : Z) : bprog (list Z) := mapp (zrange 0 (perReg sz)) (fun l => pld sz (a + l * sz)).
Fixpoint pstorev (sz a : Z) (vs : list Z) : bprog unit :=
  match vs with [] => Ret tt | v :: r => pst sz a v ;; pstorev sz (a + sz) r end.
Definition prd (sz : Z) (o : opd) (i : Z) : bprog Z :=
  match o with Ptr p s => pld sz (p + i * s) | Val v => Ret v end.
Definition prdv (sz : Z) (o : opd) (k : Z) : bprog (list Z) :=
  match o with Ptr p _ => ploadv sz (p + 32 * k) | Val v => Ret (mm_set sz v) end.

(** ---------- the loops of ops_binary.cpp; the same text as in Kernel_Model.v, access by access ---------- *)
Section Binary.
  Variables (sz : Z) (op opv : Z -> Z -> Z).

  (** Kernel_Model.scalar_loop: ops_binary.cpp:367-387 and the tails and generic loops of the others *)
  Definition pscalar_loop (x y : opd) (out so n : Z) : bprog unit :=
    forp (zrange 0 n) (fun i => let! a := prd sz x i in let! b := prd sz y i in pst sz (out + i * so) (op a b)).
  (** Kernel_Model.vector_loop *)
  Definition pvector_loop (x y : opd) (out q : Z) : bprog unit :=
    forp (zrange 0 q) (fun k => let! a := prdv sz x k in let! b := prdv sz y k in pstorev sz (out + 32 * k) (lanes2 opv a b)).
  (** Kernel_Model.body_and_tail: ops_binary.cpp:412-441, 447-480, 517-545, 590-625, 629-652, 658-692, 745-775 *)
  Definition pbody_and_tail (x y vx vy : opd) (out n : Z) : bprog unit :=
    let chunkSize := perReg sz in
    if chunkSize <=? n then
      let q := n / chunkSize in
      pvector_loop vx vy out q ;;
      pscalar_loop (adv x (32 * q)) (adv y (32 * q)) (out + 32 * q) sz (Z.land n (chunkSize - 1))
    else pscalar_loop x y out sz n.
  (** SimpleMathOpSlow, ops_binary.cpp:349-392 *)
  Definition pSimpleMathOpSlow (a1 a2 out n s1 s2 so : Z) : bprog unit :=
    if (so =? sz) && negb (s1 =? 0) && negb (s2 =? 0) && (s2 =? sz) && (s1 =? sz) then
      pscalar_loop (Ptr a1 sz) (Ptr a2 sz) out sz n
    else if (so =? sz) && (s1 =? 0) && (s2 =? sz) then
      let! v := pld sz a1 in pscalar_loop (Val v) (Ptr a2 sz) out sz n
    else if (so =? sz) && (s2 =? 0) && (s1 =? sz) then
      let! v := pld sz a2 in pscalar_loop (Ptr a1 sz) (Val v) out sz n
    else pscalar_loop (Ptr a1 s1) (Ptr a2 s2) out so n.
  (** Kernel_Model.aligned_loop: LOADA / STOREA fault at an address that is not a multiple of 32; l.498-501, 722-731 *)
  Definition paligned_loop (vf : list Z -> list Z) (p q : Z) : bprog unit :=
    forp (zrange 0 q) (fun k =>
      if (p + 32 * k) mod 32 =? 0 then let! x := ploadv sz (p + 32 * k) in pstorev sz (p + 32 * k) (vf x) else Crash).
  (** Kernel_Model.inplace_scalar: l.476-515, 695-742 *)
  Definition pinplace_scalar (vf : Z -> list Z -> list Z) (p a2 n : Z) : bprog unit :=
    let! arg2 := pld sz a2 in
    let off := Z.land p 31 in
    let babylen := (32 - off) / sz in
    let peel := negb (off =? 0) && (babylen <=? n) in
    (if peel then pscalar_loop (Ptr p sz) (Val arg2) p sz babylen else Ret tt) ;;
    let p1 := if peel then p + babylen * sz else p in
    let n1 := if peel then n - babylen else n in
    let chunkSize := perReg sz in
    if chunkSize <=? n1 then
      let q := n1 / chunkSize in
      let! again := pld sz a2 in
      paligned_loop (vf again) p1 q ;;
      pscalar_loop (Ptr (p1 + 32 * q) sz) (Val arg2) (p1 + 32 * q) sz (Z.land n1 (chunkSize - 1))
    else pscalar_loop (Ptr p1 sz) (Val arg2) p1 sz n1.
  (** SimpleMathOpFast, ops_binary.cpp:396-557 *)
  Definition pSimpleMathOpFast (a1 a2 out n s1 s2 so : Z) : bprog unit :=
    if (so =? sz) && negb (s1 =? 0) && negb (s2 =? 0) && (s2 =? sz) && (s1 =? sz) then
      pbody_and_tail (Ptr a1 sz) (Ptr a2 sz) (Ptr a1 sz) (Ptr a2 sz) out n
    else if (so =? sz) && (s1 =? 0) && (s2 =? sz) then
      let! v := pld sz a1 in pbody_and_tail (Val v) (Ptr a2 sz) (Val v) (Ptr a2 sz) out n
    else if (so =? sz) && (s2 =? 0) && (s1 =? sz) then
      if out =? a1 then pinplace_scalar (fun v x => lanes2 opv x (mm_set sz v)) a1 a2 n
      else let! v := pld sz a2 in pbody_and_tail (Ptr a1 sz) (Val v) (Ptr a1 sz) (Val v) out n
    else pscalar_loop (Ptr a1 s1) (Ptr a2 s2) out so n.
  (** SimpleMathOpFastSymmetric, ops_binary.cpp:577-792 *)
  Definition pSimpleMathOpFastSymmetric (a1 a2 out n s1 s2 so : Z) : bprog unit :=
    if (so =? sz) && (s2 =? sz) && (s1 =? sz) then
      if negb (a1 =? a2) then pbody_and_tail (Ptr a1 sz) (Ptr a2 sz) (Ptr a1 sz) (Ptr a2 sz) out n
      else pbody_and_tail (Ptr a1 sz) (Ptr a1 sz) (Ptr a1 sz) (Ptr a1 sz) out n
    else if (so =? sz) && (s1 =? 0) && (s2 =? sz) then
      let! v := pld sz a1 in pbody_and_tail (Val v) (Ptr a2 sz) (Val v) (Ptr a2 sz) out n
    else if (so =? sz) && (s2 =? 0) && (s1 =? sz) then
      if out =? a1 then pinplace_scalar (fun v x => lanes2 opv (mm_set sz v) x) a1 a2 n
      else let! v := pld sz a2 in pbody_and_tail (Ptr a1 sz) (Val v) (Val v) (Ptr a1 sz) out n
    else pscalar_loop (Ptr a1 s1) (Ptr a2 s2) out so n.
End Binary.

(** ---------- the loop a call uses ---------- *)
Inductive kernel :=
| KSym (op opv : Z -> Z -> Z) | KPlain (op opv : Z -> Z -> Z) | KSlow (op : Z -> Z -> Z)
| KNumpy (op : Z -> Z -> Z).      (* NumPy's own loop: the sequential loop with NumPy's operation *)
Definition pkernel (k : kernel) (sz a1 a2 out n s1 s2 so : Z) : bprog unit :=
  match k with
  | KSym op opv => pSimpleMathOpFastSymmetric sz op opv a1 a2 out n s1 s2 so
  | KPlain op opv => pSimpleMathOpFast sz op opv a1 a2 out n s1 s2 so
  | KSlow op => pSimpleMathOpSlow sz op a1 a2 out n s1 s2 so
  | KNumpy op => pscalar_loop sz op (Ptr a1 s1) (Ptr a2 s2) out so n
  end.
Definition of_entry (e : entry) : kernel := match e with Sym o v => KSym o v | Plain o v => KPlain o v end.
Definition of_fentry (e : fentry) : kernel := match e with FSym o => KSym o o | FPlain o => KPlain o o | FSlow o => KSlow o end.

(** _pnumpy.cpp:729-745, 771-783: the replacement loop [found] if there is one, pnumpy is enabled and the overlap guard
    lets it pass; the guard looks at the start of the whole arrays, once per call *)
Definition chosen (enabled : bool) (found : option kernel) (nop : Z -> Z -> Z) (a1 a2 out : Z) : kernel :=
  match found with
  | Some k => if enabled && negb (overlap_guard a1 a2 out) then k else KNumpy nop
  | None => KNumpy nop
  end.

(** one turn of the while loop of BinaryThreadCallbackStrided / BinaryThreadCallbackNumpy: l.459-466, 493-500
    (BlockSize is WORK_ITEM_CHUNK) *)
Definition on_block (k : kernel) (sz a1 a2 out s1 s2 so : Z) (workBlock lenX : Z) : bprog unit :=
  let adj s := WORK_ITEM_CHUNK * workBlock * s in
  pkernel k sz (a1 + adj s1) (a2 + adj s2) (out + adj so) lenX s1 s2 so.

(** ---------- the machine ---------- *)
Record ust := mkU {
  eng : state unit;            (* the engine: Threads_Model's channel machine (its own element memory is not used) *)
  umem : bytes;
  urem : Z -> bprog unit;      (* what is left of the loop each thread is running *)
  ufault : bool                (* some thread has faulted *)
}.
Definition null_ufunc : ufunc unit := mkUfunc unit 0 0 0 0 0 0 (fun _ _ => tt).

Section Machine.
  Variable body : Z -> Z -> bprog unit.     (* the work on block workBlock of lenX elements *)

  (** one step of thread [c]: an access of the engine (threads.h:326-391, 260-266, 1148-1166) or one byte access of
      the loop it is running *)
  Definition ustep (c : Z) (s : ust) : ust :=
    match pcs (eng s) c with
    | Work lb len _ =>
        match urem s c with
        | Ret _ => mkU (goto (eng s) c (Finish lb)) (umem s) (urem s) (ufault s)
        | Rd x k => mkU (eng s) (umem s) (zupd (urem s) c (k (umem s x))) (ufault s)
        | Wr x v k => mkU (eng s) (zupd (umem s) x v) (zupd (urem s) c k) (ufault s)
        | Crash | Diverge => mkU (eng s) (umem s) (urem s) true
        end
    | Bump lb len => mkU (step null_ufunc c (eng s)) (umem s) (zupd (urem s) c (body lb len)) (ufault s)
    | _ => mkU (step null_ufunc c (eng s)) (umem s) (urem s) (ufault s)
    end.
  Definition urun (s : ust) (sched : list Z) : ust := fold_left (fun s c => ustep c s) sched s.
  Definition ustart (n T : Z) (zz : bool) (m : bytes) : ust :=
    mkU (start n T zz (fun _ => tt)) m (fun _ => Ret tt) false.
End Machine.

(** ---------- the same machine with store buffers (x86-TSO) ---------- *)
(** Every thread has a queue of stores that have not reached memory; it sees its own stores at once, the others see them when they are
    committed, one byte at a time, oldest first.  A locked instruction (InterlockedIncrement64: Draw, Bump, Finish; threads.h:324, 338,
    264) waits until the thread's queue is empty.  The other engine steps are plain reads.
    The fields WorkMain fills in before it wakes anybody are in memory by then: SetWorkItem's InterlockedIncrement64, l.473. *)
Record tst := mkT { tu : ust; tbuf : Z -> list (Z * Z) }.
Fixpoint newest (l : list (Z * Z)) (x : Z) : option Z :=
  match l with
  | [] => None
  | (y, v) :: l' => match newest l' x with Some w => Some w | None => if x =? y then Some v else None end
  end.
Definition set_mem (s : ust) (m : bytes) : ust := mkU (eng s) m (urem s) (ufault s).
Section Tso.
  Variable body : Z -> Z -> bprog unit.
  (** memory commits the oldest store of thread [c] *)
  Definition tcommit (c : Z) (t : tst) : tst :=
    match tbuf t c with
    | [] => t
    | (x, v) :: l => mkT (set_mem (tu t) (zupd (umem (tu t)) x v)) (zupd (tbuf t) c l)
    end.
  Definition tthread (c : Z) (t : tst) : tst :=
    let s := tu t in
    let locked := match tbuf t c with [] => mkT (ustep body c s) (tbuf t) | _ => t end in
    match pcs (eng s) c with
    | Work lb len _ =>
        match urem s c with
        | Rd x k => mkT (mkU (eng s) (umem s) (zupd (urem s) c (k match newest (tbuf t c) x with Some v => v | None => umem s x end)) (ufault s)) (tbuf t)
        | Wr x v k => mkT (mkU (eng s) (umem s) (zupd (urem s) c k) (ufault s)) (zupd (tbuf t) c (tbuf t c ++ [(x, v)]))
        | _ => mkT (ustep body c s) (tbuf t)
        end
    | Draw _ _ | Bump _ _ | Finish _ => locked
    | _ => mkT (ustep body c s) (tbuf t)
    end.
  (** a schedule is a list of events: 2c - thread c makes a step; 2c+1 - a store of thread c is committed *)
  Definition tevent (e : Z) (t : tst) : tst := if Z.even e then tthread (e / 2) t else tcommit (e / 2) t.
  Definition trun (t : tst) (sched : list Z) : tst := fold_left (fun t e => tevent e t) sched t.
  Definition tstart (n T : Z) (zz : bool) (m : bytes) : tst := mkT (ustart n T zz m) (fun _ => []).
End Tso.

(** a program run by one thread alone *)
Fixpoint solo {A} (p : bprog A) (m : bytes) : option bytes :=
  match p with
  | Ret _ => Some m
  | Rd x k => solo (k (m x)) m
  | Wr x v k => solo k (zupd m x v)
  | Crash | Diverge => None
  end.

(** How the call was executed: GetWorkItem(n) gave no work item (caller alone, l.747-757), or it was threaded.
    [whole]: the work as one loop; [body]: block by block. *)
Definition ufault_in (whole : bprog unit) (body : Z -> Z -> bprog unit) (n : Z) (h : how) (m : bytes) : Prop :=
  match h with
  | Alone => solo whole m = None
  | Threaded T zz sched => WORK_ITEM_BIG <= n /\ 0 <= T /\ ufault (tu (trun body (tstart n T zz m) sched)) = true
  end.
Definition ucall (whole : bprog unit) (body : Z -> Z -> bprog unit) (n : Z) (h : how) (m m' : bytes) : Prop :=
  match h with
  | Alone => solo whole m = Some m'
  | Threaded T zz sched => WORK_ITEM_BIG <= n /\ 0 <= T /\
      let s := tu (trun body (tstart n T zz m) sched) in pcs (eng s) 0 = Returned /\ umem s = m'
  end.
