(** StrPar_Model.v - threaded sorts of strings and of strided arrays, src/atop/sort.cpp. *)
From Verif Require Import Base Threads_Model Sort_Model SortCmp_Model ParSort_Model.

(** * indirect sort of strings on threads (par_amergesort, sort.cpp:2006-2059, sort types String, Unicode, Void) *)
(** ParMergeMergeString, 1275-1318. The quick check compares the string of row number [*pm] with that of row number
    [*pm - 1] (1292): the row before it in the unsorted data, not the row stored at [pm - 1] as ParMergeMerge does (1346) *)
Definition par_merge_string F (LT : Z -> Z -> option bool) (start n pw : Z) : prog Z unit :=
  let pr := start + n in
  let pm := start + n / 2 in
  let! x := load pm in
  let! b := ask (LT x (x - 1)) in
  if b : bool then
    memcpy F pw start (pm - start) ;;
    let pi := pw + (pm - start) in
    let! (p, _, d) := merge_loop F (fun l r => let! b := ask (LT r l) in Ret (negb b)) pw pi pm pr start in
    let! _ := copy_rest F p pi d in Ret tt
  else Ret tt.
(** MergeCallbackTwo at a node of the tree, 1724-1756 *)
Definition merge_node_string F (LT : Z -> Z -> option bool) (dst pw n : Z) (l : nat) (i : Z) : prog Z unit :=
  par_merge_string F LT (dst + node_first n l i) (node_size n l i) (pw + node_ws n l i).
(** step one is ParMergeString (1236-1251) = sort_index of a string column *)
Definition par_argsort_string F (col : column) (start pw n : Z) (wakeup : Z) (zz : bool) (m : Z -> Z) (sched : list Z) : pstate Z :=
  prun (argsort_leaf F MERGE col start pw n) (merge_node_string F (lt_at col) start pw n) NumLevels (pstart NumCores wakeup zz m) sched.

(** * in-place sort of byte strings on threads (par_sort<unsigned char>, 2119-2178): memory is bytes.
    Array and workspace base addresses are given in items; the item at x is the L bytes from L*x. *)
Definition vec (L : nat) : Type := { v : list Z | length v = L }.
Definition vcons {k} (b : Z) (r : vec k) : vec (S k) := exist _ (b :: proj1_sig r) (f_equal S (proj2_sig r)).
Fixpoint bread (k : nat) (x : Z) : prog Z (vec k) :=
  match k with
  | O => Ret (exist _ [] eq_refl)
  | S k => let! b := load x in let! r := bread k (x + 1) in Ret (vcons b r)
  end.
Fixpoint bwrite (v : list Z) (x : Z) (p : prog Z unit) : prog Z unit :=
  match v with [] => p | b :: v => Wr x b (bwrite v (x + 1) p) end.
(** a program on items of L bytes, run on bytes *)
Fixpoint blift (L : nat) (p : prog (vec L) unit) : prog Z unit :=
  match p with
  | Ret _ => Ret tt
  | Rd x f => bind (bread L (Z.of_nat L * x)) (fun v => blift L (f v))
  | Wr x v f => bwrite (proj1_sig v) (Z.of_nat L * x) (blift L f)
  | Crash => Crash
  | Diverge => Diverge
  end.
Definition LT_vec {L} (a b : vec L) : option bool := Some (STRING_LT (proj1_sig a) (proj1_sig b)).

(** step one: copy (CopyData, 1616-1626, equal strides) and mergesortstring_ (983-998) *)
Definition sort_leaf_string F (L : nat) (src dst lw n : Z) (i : Z) : prog Z unit :=
  let first := node_first n 0 i in
  let size := node_size n 0 i in
  (if src =? dst then Ret tt else memcpy F (Z.of_nat L * (dst + first)) (Z.of_nat L * (src + first)) (Z.of_nat L * size)) ;;
  blift L (mergesort0string_ F LT_vec true F (dst + first) (dst + first + size) (lw + node_ws n 0 i)).
(** ParInPlaceMerge<unsigned char>, 1382-1422: DATATYPE is a byte, so [totalLen] items are taken as [totalLen] bytes; only
    the memcpy (1401) multiplies by strlen *)
Definition byte_merge F (L : nat) (start n pw : Z) : prog Z unit :=
  let pr := start + n in
  let pm := start + n / 2 in
  let! x := load pm in let! y := load (pm - 1) in
  if x <? y then
    memcpy F pw start ((pm - start) * Z.of_nat L) ;;
    let pi := pw + (pm - start) in
    let! (p, _, d) := merge_loop F (fun l r => Ret (negb (r <? l))) pw pi pm pr start in
    let! _ := copy_rest F p pi d in Ret tt
  else Ret tt.
(** SortCallbackTwo at a node, 1818-1849: pData + pFirst * itemSize, MergeSize, strLen, pWorkSpace + ... * itemSize *)
Definition merge_node_bytes F (L : nat) (dst pw n : Z) (l : nat) (i : Z) : prog Z unit :=
  byte_merge F L (Z.of_nat L * (dst + node_first n l i)) (node_size n l i) (Z.of_nat L * (pw + node_ws n l i)).
Definition par_sort_string F (L : nat) src dst lw pw n (wakeup : Z) (zz : bool) (m : Z -> Z) (sched : list Z) : pstate Z :=
  prun (sort_leaf_string F L src dst lw n) (merge_node_bytes F L dst pw n) NumLevels (pstart NumCores wakeup zz m) sched.

(** * sort of a strided array (pn.sort, sorting.cpp:521-577): [stride] in items *)
(** CopyData, 1616-1686, to a contiguous output: item i comes from src + i*stride (stride 1: the memcpy) *)
Definition copy_strided {T} F (dst src stride n : Z) : prog T unit :=
  loop F (fun i => if i <? n then let! x := load (src + i * stride) in store (dst + i) x ;; Ret (inl (i + 1)) else Ret (inr tt)) 0.
(** par_sort without a work item, 2181-2196 *)
Definition sort_alone {T} F (LT : T -> T -> option bool) LE isnan mode (src stride dst n ws : Z) : prog T unit :=
  copy_strided F dst src stride n ;; sort_in_place F LT LE isnan mode dst n ws.
(** par_sort on threads, 2136-2178: stridesIn is not among the values passed to the callback (2157-2165), which copies with
    TypeSizeInput = itemSize (1810), that is contiguous items *)
Definition sort_threaded {T} F (LT : T -> T -> option bool) LE isnan mode (src stride dst lw pw n : Z) (wakeup : Z) (zz : bool)
    (m : Z -> T) (sched : list Z) : pstate T :=
  par_sort F LT LE isnan mode src dst lw pw n wakeup zz m sched.
