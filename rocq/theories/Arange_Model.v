(** Arange_Model.v - filling an arange: src/atop/fill.cpp:58-137, called from src/pnumpy/_pnumpy.cpp:1122-1145 with the first
    and second value living in elements 0 and 1 of the buffer being filled.  One memory cell per element. *)
From Coq Require Import Floats.SpecFloat.
From Verif Require Import Base Threads_Model Jobs_Model.

Section Fill.
  Context {V : Type} (sub : V -> V -> V) (elem : V -> Z -> V -> V) (dummy : V).
  (** ArangeFillType, fill.cpp:58-85: locals are (first, delta).  Each read and each store is one step, because the values
      at 0 and 1 are re-read by every chunk while chunk 0 overwrites them. *)
  Definition op_first : micro (V * V) V := fun l m => ((m 0, snd l), None).          (* l.64 *)
  Definition op_delta : micro (V * V) V := fun l m => ((fst l, sub (m 1) (fst l)), None).  (* l.65-67: delta = next; delta -= first *)
  Definition op_store (i : Z) : micro (V * V) V := fun l m => (l, Some (i, elem (fst l) i (snd l))).  (* l.70-72 *)
  (* l.125-130: the callback runs the fill from start to start+length *)
  Definition arange_prog (st len : Z) : list (micro (V * V) V) :=
    op_first :: op_delta :: map (fun i => op_store (st + i)) (zrange 0 len).
End Fill.

(** integer types of w bits (int8..int64, signed or unsigned), as bit patterns in [0, 2^w): (TYPE)(first + i*delta) computed
    in 64 bits and truncated.  Signed overflow is taken to wrap. *)
Definition sub_int (w x y : Z) : Z := (x - y) mod 2 ^ w.
Definition elem_int (w first i delta : Z) : Z := (first + i * delta) mod 2 ^ w.
Definition arange_int (w : Z) := arange_prog (sub_int w) (elem_int w).

(** float (binary32): i converted to float, then a rounded product and a rounded sum (no fused multiply-add) *)
Definition f32_of_Z (i : Z) : spec_float := binary_normalize 24 128 i 0 false.
Definition arange_f32 := arange_prog (SFsub 24 128) (fun first i delta => SFadd 24 128 first (SFmul 24 128 (f32_of_Z i) delta)).
