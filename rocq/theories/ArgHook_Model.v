(** ArgHook_Model.v - np.argsort and np.lexsort once initialize() has hooked the argsort functions of the dtypes:
    AtopArgSortMathFunction, src/pnumpy/_pnumpy.cpp:1059-1100, called by NumPy's _new_argsortlike and PyArray_LexSort
    (numpy/core/src/multiarray/item_selection.c; their description is trusted, one row at a time).
    Arrays are those of LexCall_Model.v. *)
From Verif Require Import Base Threads_Model Jobs_Model Sort_Model SortCmp_Model ParSort_Model LexCall_Model.

(** the dtypes whose functions are replaced, _pnumpy.cpp:1288: bool, the integers, float32, float64 *)
Definition hooked_dtype (dt : Z) : bool := (0 <=? dt) && (dt <=? 12).
(** SORT_MODE(sortkind), 1073, common_inc.h:447-451 *)
Inductive np_kind := Quicksort | Heapsort | Stable.
Definition mode_of (k : np_kind) : sort_mode := match k with Quicksort => QSORT | Heapsort => HEAP | Stable => MERGE end.

(** what NumPy hands to the function: the array itself if it is aligned, native and its items are next to each other, otherwise a
    buffer filled by copyswapn in native byte order *)
Definition numpy_buffer (misaligned : bool) (a : arr) : arr :=
  if misaligned || a_swap a || negb (a_stride a =? a_item a) then
    mkArr (a_dt a) (a_item a) 1 (a_len a) 0 (a_item a) true false
          (fun x => a_bytes a (a_off a + x / a_item a * a_stride a + (if a_swap a then a_item a - 1 - x mod a_item a else x mod a_item a)))
  else a.

Section Hook.
  Variables (F : nat) (enabled : bool) (start pw : Z).            (* AtopEnabled; the index cells; workspace *)
  (** NumPy's own argsort function of the dtype (pOldFunc): what it does with the index cells *)
  Variable old : arr -> np_kind -> (Z -> Z) -> (Z -> Z) -> Prop.

  (** 1063-1094 with the ledger off: 16-bit or smaller types with a stable kind are left to NumPy, and so is a type SortIndex does
      not know (it returns -1); the others go to SortIndex64 without cutoffs, alone or on threads *)
  Definition AtopArgSort (k : np_kind) (a : arr) (n : Z) (h : how) (m m' : Z -> Z) : Prop :=
    if enabled && ((4 <? atop_of (a_dt a)) || match k with Stable => false | _ => true end) then
      match SortIndex_column n (Some a) with
      | Some c => column_call F (mode_of k) c start pw n h m m'
      | None => old a k m m'
      end
    else old a k m m'.

  (** np.argsort of one row: the index is filled with 0 .. n-1 *)
  Definition np_argsort (k : np_kind) (mis : bool) (a : arr) (n : Z) (h : how) (m m' : Z -> Z) : Prop :=
    exists m1, exec (inr_ start (start + n)) (fill_range F start n) m = Finished tt m1 /\
      AtopArgSort k (numpy_buffer mis a) n h m1 m'.

  (** np.lexsort of one row: the stable function of each key's dtype, the first key first *)
  Fixpoint np_columns (keys : list (arr * bool * how)) (n : Z) (m m' : Z -> Z) : Prop :=
    match keys with
    | [] => m' = m
    | (a, mis, h) :: keys => exists m1, AtopArgSort Stable (numpy_buffer mis a) n h m m1 /\ np_columns keys n m1 m'
    end.
  Definition np_lexsort (keys : list (arr * bool * how)) (n : Z) (m m' : Z -> Z) : Prop :=
    exists m1, exec (inr_ start (start + n)) (fill_range F start n) m = Finished tt m1 /\ np_columns keys n m1 m'.
End Hook.
