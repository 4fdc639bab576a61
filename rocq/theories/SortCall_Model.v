(** SortCall_Model.v - the native call _pnumpy.sort(a, kind=...): src/pnumpy/sorting.cpp:521-577, exported by src/pnumpy/module_init.cpp:90;
    the result array (AllocateLikeNumpyArray, src/pnumpy/common.cpp:172-212); Sort and par_sort, src/atop/sort.cpp:2120-2196, 2379-2490.
    The sorting functions are in Sort_Model.v, SortCmp_Model.v, ParSort_Model.v and StrPar_Model.v.

    The sorts work on cells; here a cell holds one item as the list of its bytes, in the order of their addresses. *)
From Coq Require Import SpecFloat.
From Verif Require Import Base Threads_Model Kernel_Model Sort_Model SortCmp_Model ParSort_Model StrPar_Model LexCall_Model Layout_Model GetCall_Model.

Definition item := list Z.
(** the bytes of the item at a distance of x bytes *)
Definition bytes_at (a : nda) (x : Z) : item := map (fun b => d_mem a (d_off a + x + b)) (zrange 0 (d_item a)).

(** a number read by the processor: little endian *)
Definition little (l : item) : Z := fold_right (fun b r => b + 256 * r) 0 l.
Definition num_key (t : Z) (l : item) : Z := if signed_t t then sval (8 * c_size t) (little l) else little l.
Definition flt_key (t : Z) (l : item) : spec_float := (if t =? 12 then decode32 else if t =? 13 then decode64 else decode80) (little l).
(** the characters of a unicode item, uint32_t each *)
Fixpoint chars4 (l : item) : list Z := match l with a :: b :: c :: d :: r => little [a; b; c; d] :: chars4 r | _ => [] end.

(** the sort functions by type: GetSortFunction, sort.cpp:2379-2411, GetSortFunctionString, 2415-2427; atop_half is a uint16_t and compared as one
    (C29); SortInPlaceString (2232-2248) is the merge sort whatever the kind *)
Inductive sorter := Numbers (lt le : item -> item -> bool) (isnan : item -> bool) | Strings (lt : item -> item -> bool).
Definition sorter_of (t : Z) : sorter :=
  if t =? 19 then Strings STRING_LT
  else if t =? 20 then Strings (fun x y => STRING_LT (chars4 x) (chars4 y))
  else if (12 <=? t) && (t <=? 14) then Numbers (lt_float (flt_key t)) (LE_float (flt_key t)) (nan_float (flt_key t))
  else Numbers (fun x y => num_key t x <? num_key t y) (fun x y => num_key t x <=? num_key t y) (fun _ => false).

(** without a work item, or with one and the schedule of the threads: [wakeup] workers woken, direction [zz] *)
Inductive sort_how := NoWorkItem | WorkItem (wakeup : Z) (zz : bool) (sched : list Z).

Section Call.
  Variables (F : nat) (src dst ws pw : Z) (junk : Z -> item).   (* cells of the source, the result, the workspaces of the leaves and the merges; what is in memory *)

  (** CopyData, sort.cpp:1616-1686: item i from data + i*stride *)
  Definition copy_in (a : nda) (stride n : Z) : prog item unit :=
    loop F (fun i => if i <? n then store (dst + i) (bytes_at a (i * stride)) ;; Ret (inl (i + 1)) else Ret (inr tt)) 0.
  Definition sort_here (mode : sort_mode) (f : sorter) (n : Z) : prog item unit :=
    match f with
    | Numbers lt le isnan => sort_in_place F (fun x y => Some (lt x y)) le isnan mode dst n ws
    | Strings lt => mergesort0string_ F (fun x y => Some (lt x y)) true F dst (dst + n) ws
    end.
  (** the source as par_sort's callbacks see it, 1806-1812: items next to each other, whatever the stride *)
  Definition source_cells (a : nda) (n : Z) : Z -> item := fun x => if (src <=? x) && (x <? src + n) then bytes_at a ((x - src) * d_item a) else junk x.
  (** par_sort, 2120-2196: [m'] are the cells when it returns.  A work item is given out from 65536 items on (threads.h:1056-1072).
      Simplifications: the allocation of the workspace succeeds; strings on threads are left open here (C37 shows what goes wrong). *)
  Definition sorted_cells (a : nda) (stride n : Z) (mode : sort_mode) (h : sort_how) (m' : Z -> item) : Prop :=
    match h with
    | NoWorkItem => exec (fun _ => true) (copy_in a stride n ;; sort_here mode (sorter_of (atop_of (d_dt a))) n) junk = Finished tt m'
    | WorkItem wakeup zz sched => 65536 <= n /\
        match sorter_of (atop_of (d_dt a)) with
        | Numbers lt le isnan =>
            let s := par_sort F (fun x y => Some (lt x y)) le isnan mode src dst ws pw n wakeup zz (source_cells a n) sched in
            cpcs (pc s) 0 = CReturned /\ m' = pm s
        | Strings _ => True
        end
    end.

  (** C-ordered strides *)
  Fixpoint c_strides (item_ : Z) (ds : list Z) : list Z := match ds with [] => [] | _ :: ds' => item_ * fold_left Z.mul ds' 1 :: c_strides item_ ds' end.
  (** AllocateLikeNumpyArray: the shape of [a]; numbers get the native dtype of the number (182, 198), strings the dtype of the array (194-196); C order if the
      array is in C order or has one dimension, otherwise [keep], the order NumPy's NPY_KEEPORDER gives *)
  Definition like_array (a : nda) (keep : list Z) (mem : Z -> Z) : nda :=
    let str := (d_dt a =? 18) || (d_dt a =? 19) in
    mkND (d_dt a) (d_item a) (str && d_swap a) (str && d_extra a) (d_dims a)
         (if (ndim a <=? 1) || is_c_contiguous (lay a) then c_strides (d_item a) (d_dims a) else keep) 0 mem.
  (** byte x of the result *)
  Definition result_bytes (a : nda) (m' : Z -> item) (x : Z) : Z := nth (Z.to_nat (x mod d_item a)) (m' (dst + x / d_item a)) 0.

  (** sort, sorting.cpp:521-577: one array, no more positional arguments (525); of the keywords only kind= is looked at (557) *)
  Definition sort_call (args : list pyobj) (kind : option (list Z)) (keep : list Z) (h : sort_how) (r : answer) : Prop :=
    match args with
    | [OArr a] =>
        if negb (type_ok (atop_of (d_dt a))) then r = Refused
        else match accepted_stride (lay a) with
             | None => r = Refused
             | Some stride => exists m', sorted_cells a stride (array_length (lay a)) (GetKind kind QSORT) h m' /\ r = Gives (like_array a keep (result_bytes a m'))
             end
    | _ => r = Refused
    end.
End Call.
