(** Alloc_Model.v - FmAlloc and FmFree, src/atop/atop.cpp:17-61, over a model of malloc/free.

    malloc is an oracle: [Alloc size ans] is a call of FmAlloc during which malloc answered [ans]; the C library's promises
    about the answer are [malloc_may] below.  Calls are atomic here: the counters are updated by interlocked instructions and
    every other access is to the caller's own block. *)
From Verif Require Import Base Kernel_Model Kernel_Proofs.

(** atop.cpp:23 *)
Definition MAGIC_PAGE_GUARD : Z := 0xDEADBEEFDEADBEEF.

(** [live]: the blocks malloc has given out, with their sizes; [freelog]: the arguments of free(), latest first;
    [logerror]: how many times LOGERROR ran; the four counters of atop.cpp:18-21 *)
Record heap := mkHeap { mem : bytes; live : list (Z * Z); freelog : list Z; logerror : Z;
  TotalAllocs : Z; TotalFree : Z; TotalMemoryAllocated : Z; TotalMemoryFreed : Z }.

(** what malloc(n) may answer: NULL, or a 16-byte aligned block of n bytes outside all live blocks *)
Definition malloc_may (h : heap) (n : Z) (ans : option Z) : Prop :=
  match ans with
  | None => True
  | Some b => 0 < b /\ b mod 16 = 0 /\ b + n <= 2 ^ 64 /\ (forall b' n', In (b', n') (live h) -> b + n <= b' \/ b' + n' <= b)
  end.

(** FmAlloc, atop.cpp:25-39; size_t arithmetic is modulo 2^64 *)
Definition malloc_arg (size : Z) : Z := (size + 16) mod 2 ^ 64.
Definition FmAlloc (size : Z) (ans : option Z) (h : heap) : heap * Z :=
  match ans with
  | None => (h, 0)
  | Some b =>
      (mkHeap (st 8 (st 8 (mem h) b size) (b + 8) MAGIC_PAGE_GUARD) ((b, malloc_arg size) :: live h) (freelog h) (logerror h)
              (TotalAllocs h + 1) (TotalFree h) (TotalMemoryAllocated h + size) (TotalMemoryFreed h), b + 16)
  end.

(** free(b): the block starting at b is no longer live *)
Fixpoint remove_block (b : Z) (l : list (Z * Z)) : list (Z * Z) :=
  match l with [] => [] | (b', n) :: l' => if b' =? b then l' else (b', n) :: remove_block b l' end.
(** FmFree, atop.cpp:41-61 *)
Definition FmFree (p : Z) (h : heap) : heap :=
  if p =? 0 then h
  else
    let g := p - 16 in
    if ld 8 (mem h) (g + 8) =? MAGIC_PAGE_GUARD
    then mkHeap (st 8 (mem h) (g + 8) 0) (remove_block g (live h)) (g :: freelog h) (logerror h)
                (TotalAllocs h) (TotalFree h + 1) (TotalMemoryAllocated h) (TotalMemoryFreed h + ld 8 (mem h) g)
    else mkHeap (mem h) (remove_block g (live h)) (g :: freelog h) (logerror h + 1)
                (TotalAllocs h) (TotalFree h + 1) (TotalMemoryAllocated h) (TotalMemoryFreed h).

(** what the program does with the allocator *)
Inductive op := Alloc (size : Z) (ans : option Z) | Free (p : Z) | Write (a v : Z).
Definition do (o : op) (h : heap) : heap :=
  match o with
  | Alloc size ans => fst (FmAlloc size ans h)
  | Free p => FmFree p h
  | Write a v => mkHeap (zupd (mem h) a v) (live h) (freelog h) (logerror h) (TotalAllocs h) (TotalFree h) (TotalMemoryAllocated h) (TotalMemoryFreed h)
  end.
Fixpoint run (l : list op) (h : heap) : heap := match l with [] => h | o :: l' => run l' (do o h) end.
