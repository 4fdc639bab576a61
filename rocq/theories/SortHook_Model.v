(** SortHook_Model.v - np.sort / ndarray.sort of a one-dimensional array once initialize() has hooked the sort functions of the
    dtypes: AtopSortMathFunction, src/pnumpy/_pnumpy.cpp:1012-1057, called by NumPy.

    One memory cell holds one item, as the bytes are stored (a pattern); [swp] reverses the bytes of a pattern.  [src] is
    the array (PyArray_BYTES of the object), one item after the other. *)
From Verif Require Import Base Threads_Model Sort_Model SortCmp_Model ParSort_Model StrPar_Model.

Section Hook.
  Context {T : Type}.
  Variables (F : nat) (LT : T -> T -> option bool) (LE : T -> T -> bool) (isnan : T -> bool) (mode : sort_mode) (swp : T -> T).

  (** the guards of the hook, _pnumpy.cpp:1024-1036: one dimension, not (16-bit or smaller and stable), the object's item size and its stride equal
      to the size of the hooked type; none of them looks at the byte order.  Types by ATOP number, sizes in bytes.  The test on the
      object's dtype number (1024) is always true for the hooked types. *)
  Record shape := mkShape { ndim : Z; atype : Z; stride : Z; itemsize : Z; typesize : Z }.
  Definition hook_accepts (sh : shape) : bool :=
    (ndim sh =? 1) && ((4 <? atype sh) || negb (match mode with MERGE => true | _ => false end)) && (itemsize sh =? typesize sh) && (stride sh =? typesize sh).

  (** the accelerated branch, below the threading threshold, _pnumpy.cpp:1038-1040: Sort(mode, atype, PyArray_BYTES(obj), length,
      PyArray_STRIDE(obj, 1), itemsize, pDest, itemsize).  A 1-D array has no stride number 1: [g] is what is found behind its only
      stride (simplification: taken as a whole number of items).  par_sort copies only when source and destination differ
      (sort.cpp:2184-2193) and sorts the destination. *)
  Definition hook_sort (obj dest g n ws : Z) : prog T unit :=
    (if obj =? dest then Ret tt else copy_strided F dest obj g n) ;;
    sort_in_place F LT LE isnan mode dest n ws.

  (** AtopSortMathFunction: the accelerated branch, or [old], NumPy's own function for the dtype and kind (1047) *)
  Definition AtopSort (old : Z -> Z -> prog T unit) (sh : shape) (obj dest g n ws : Z) : prog T unit :=
    if hook_accepts sh then hook_sort obj dest g n ws else old dest n.

  (** NumPy's copyswapn: n items from [src] to [dst], [ds] and [ss] items apart, their bytes reversed if [swapped] *)
  Definition copyswapn (swapped : bool) (dst ds src ss n : Z) : prog T unit :=
    loop F (fun i => if i <? n then let! x := load (src + i * ss) in store (dst + i * ds) (if swapped then swp x else x) ;; Ret (inl (i + 1)) else Ret (inr tt)) 0.

  (** NumPy's _new_sortlike (numpy/core/src/multiarray/item_selection.c), one row of n items, [st] items apart, of an array of the given shape that starts
      at [obj]: if the items are byte-swapped, misaligned or not next to each other it copies them to a buffer, in native order, has the buffer
      sorted, and copies it back; otherwise the row is sorted in place.  [st] * itemsize is the stride of a 1-D array. *)
  Definition numpy_sort (old : Z -> Z -> prog T unit) (sh : shape) (swapped misaligned : bool) (obj arr st buf g n ws : Z) : prog T unit :=
    if swapped || misaligned || negb (st =? 1) then
      copyswapn swapped buf 1 arr st n ;;
      AtopSort old sh obj buf g n ws ;;
      copyswapn swapped arr st buf 1 n
    else AtopSort old sh obj arr g n ws.
End Hook.

(** byte reversal of a pattern of k bytes *)
Fixpoint bswap_ (k : nat) (x acc : Z) : Z := match k with O => acc | S k => bswap_ k (x / 256) (acc * 256 + x mod 256) end.
Definition bswap (k : nat) (x : Z) : Z := bswap_ k x 0.
