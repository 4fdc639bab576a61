(** SortCmp_Model.v - src/atop/sort.cpp: the comparison functions. *)
From Coq Require Import SpecFloat.
From Verif Require Import Base Sort_Model.

(** * Floating point items (float, double, long double)
    An item is any value with a meaning [val : T -> spec_float]; distinct items may have the same value (NaN payloads),
    so a sort of items moves bit patterns. C's <, <=, == on floats are SFltb, SFleb, SFeqb: false as soon as an operand is NaN. *)
Section Float.
  Context {T : Type}.
  Variable val : T -> spec_float.

  (** sort.cpp:125-127: X < Y || (Y != Y && X == X) *)
  Definition lt_float (x y : T) : bool :=
    SFltb (val x) (val y) || (negb (SFeqb (val y) (val y)) && SFeqb (val x) (val x)).
  Definition LT_float (x y : T) : option bool := Some (lt_float x y).
  (** the C operator <= used by the merge loops, e.g. sort.cpp:735 *)
  Definition LE_float (x y : T) : bool := SFleb (val x) (val y).
  (** cmp != cmp, sort.cpp:139-144 *)
  Definition nan_float (x : T) : bool := negb (SFeqb (val x) (val x)).
  (** COMPARE_LT_UNSAFE / the bare <, sort.cpp:1165 *)
  Definition rawlt_float (x y : T) : bool := SFltb (val x) (val y).
End Float.

(** meaning of the bit patterns of float (24, 8) and double (53, 11): IEEE 754 binary interchange *)
Definition decode (prec ew : Z) (b : Z) : spec_float :=
  let mw := prec - 1 in
  let emin := 3 - 2 ^ (ew - 1) - prec in
  let s := Z.testbit b (mw + ew) in
  let e := (b / 2 ^ mw) mod 2 ^ ew in
  let f := b mod 2 ^ mw in
  if e =? 2 ^ ew - 1 then (if f =? 0 then S754_infinity s else S754_nan)
  else if e =? 0 then match f with Zpos p => S754_finite s p emin | _ => S754_zero s end
  else match f + 2 ^ mw with Zpos p => S754_finite s p (e - 1 + emin) | _ => S754_nan end.
Definition decode16 := decode 11 5.
Definition decode32 := decode 24 8.
Definition decode64 := decode 53 11.

(** * Half floats: atop_half is uint16_t (common_inc.h), so SortInPlace<atop_half> (sort.cpp:2405) uses
    COMPARE_LT(uint16_t, uint16_t), sort.cpp:135, on the bit patterns *)
Definition LT_half_used (x y : Z) : option bool := Some (x <? y).

(** * Strings: an item is the list of its units (bytes, or UCS4 code points), all of the same length *)

(** STRING_LT(const unsigned char* ), sort.cpp:203-213 (unit = byte, len of them) and
    STRING_LT(const uint32_t* ), 218-229 (unit = 32-bit word, len/4 of them) *)
Fixpoint STRING_LT (a b : list Z) : bool :=
  match a, b with
  | x :: a, y :: b => if negb (x =? y) then x <? y else STRING_LT a b
  | _, _ => false
  end.

(** little-endian load of k bytes, as *(uint64_t* ), *(uint32_t* ), *(uint16_t* ) do on x86 *)
Fixpoint le_load (k : nat) (a : list Z) : Z :=
  match k, a with S k, x :: a => x + 256 * le_load k a | _, _ => 0 end.

(** the load sizes after the 8-byte loop for a remaining length of 1..8, sort.cpp:248-325 *)
Definition tail_chunks (len : nat) : list nat :=
  match len with
  | 1 => [1] | 2 => [2] | 3 => [2; 1] | 4 => [4] | 5 => [4; 1] | 6 => [4; 2] | 7 => [4; 2; 1] | 8 => [8] | _ => []
  end%nat.
(** compare the chunks in turn; the first difference decides *)
Fixpoint chunks_lt (ch : list nat) (a b : list Z) : bool :=
  match ch with
  | [] => false
  | k :: ch => if negb (le_load k a =? le_load k b) then le_load k a <? le_load k b
               else chunks_lt ch (skipn k a) (skipn k b)
  end.
(** number of times the loop while (len > 8) runs, and what is left: sort.cpp:240-247 *)
Definition void_chunks (len : nat) : list nat :=
  let k := (Nat.pred len / 8)%nat in repeat 8%nat k ++ tail_chunks (len - 8 * k).
(** STRING_LT(const char* ), sort.cpp:233-329: void items *)
Definition VOID_LT (len : nat) (a b : list Z) : bool := chunks_lt (void_chunks len) a b.
(** BINARY_LT, sort.cpp:333-406: 1 when the items differ *)
Fixpoint chunks_ne (ch : list nat) (a b : list Z) : bool :=
  match ch with
  | [] => false
  | k :: ch => if negb (le_load k a =? le_load k b) then true else chunks_ne ch (skipn k a) (skipn k b)
  end.
Definition BINARY_LT (len : nat) (a b : list Z) : bool := chunks_ne (void_chunks len) a b.

(** * Indirect comparison: v[i] < v[j] for indices i, j into an array of n keys; outside it is undefined behaviour.
    quicksort 613-692, heapsort 468-520, merge 1053-1191 *)
Definition LT_at {K} (n : Z) (v : Z -> K) (lt : K -> K -> bool) (i j : Z) : option bool :=
  if inr_ 0 n i && inr_ 0 n j then Some (lt (v i) (v j)) else None.

(** * lexsort, sorting.cpp:372-489, without cutoffs and index keywords, in the calling thread.
    A key column is a comparison of rows: strings go through amergesort0_string (ParMergeString, sort.cpp:1236-1266),
    numbers through SortIndex<T> (2251-2288) by mode. *)
Record column := { is_string : bool; lt_at : Z -> Z -> option bool; rawlt_at : Z -> Z -> option bool }.

Definition sort_index F (mode : sort_mode) (c : column) (start n pw : Z) : prog Z unit :=
  if is_string c then mergesort0string_ F (lt_at c) false F start (start + n) pw
  else match mode with
       | QSORT => quicksort_ F (lt_at c) start n
       | HEAP => heapsort_ F (lt_at c) start n
       | MERGE => amergesort_ F (lt_at c) (rawlt_at c) start n pw
       end.

(** ARangeCallback over the whole range, sort.cpp:2493-2505 (its threading is C25) *)
Definition fill_range F (start n : Z) : prog Z unit :=
  loop F (fun i => if i <? n then store (start + i) i ;; Ret (inl (i + 1)) else Ret (inr tt)) 0.

(** the loop over the columns, sorting.cpp:470-481 *)
Fixpoint sort_columns F mode (cols : list column) (start n pw : Z) : prog Z unit :=
  match cols with
  | [] => Ret tt
  | c :: cols => sort_index F mode c start n pw ;; sort_columns F mode cols start n pw
  end.
Definition lexsort F mode cols (start n pw : Z) : prog Z unit :=
  fill_range F start n ;; sort_columns F mode cols start n pw.
(** AtopArgSortMathFunction, _pnumpy.cpp:1058-1100: numpy hands over the index buffer filled with 0..n-1 *)
Definition argsort F mode c (start n pw : Z) : prog Z unit := lexsort F mode [c] start n pw.
