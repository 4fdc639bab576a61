(** IsSorted_Model.v - src/atop/sort.cpp:2776-2974 (IsSorted) and src/pnumpy/sorting.cpp:126-162 (is_sorted). *)
From Coq Require Import SpecFloat.
From Verif Require Import Base Threads_Model Jobs_Model Sort_Model SortCmp_Model.

(** while ((i > 0) && test(i)) i--;  the value of i afterwards (i starts at k) *)
Fixpoint scan (test : Z -> bool) (k : nat) : nat :=
  match k with O => O | S k' => if test (Z.of_nat k) then scan test k' else k end.

(** IsSorted<T>, 2802-2816, and IsSortedString, IsSortedUnicode, IsSortedVoid, 2820-2863, on the [len] items from item [st]:
    [ge x y] is x >= y, or !STRING_LT(x, y). int64_t i = arraySize1 - 1; return i <= 0 *)
Definition IsSorted_ {T} (ge : T -> T -> bool) (d : Z -> T) (st len : Z) : bool :=
  Nat.eqb (scan (fun i => ge (d (st + i)) (d (st + i - 1))) (Z.to_nat (len - 1))) 0.
(** IsSortedFloat<T>, 2780-2798 *)
Definition IsSortedFloat {T} (val : T -> spec_float) (d : Z -> T) (st len : Z) : bool :=
  let i := scan (fun i => negb (SFeqb (val (d (st + i))) (val (d (st + i))))) (Z.to_nat (len - 1)) in
  Nat.eqb (scan (fun i => SFleb (val (d (st + i - 1))) (val (d (st + i)))) i) 0.

(** lambdaISCallback, 2942-2962. The shared flag cb->IsSorted is cell 0; the read of the flag and the store to it are separate
    steps, so callbacks of different threads interleave. Nobody writes the data, so [func] is one step. *)
Definition is_sorted_prog (func : Z -> Z -> bool) (start length : Z) : list (micro bool bool) :=
  [ (fun _ m => (m 0, None));
    (fun l m => (l, if l : bool then
        let start' := if negb (start =? 0) then start - 1 else start in
        let length' := if negb (start =? 0) then length + 1 else length in
        if func start' length' then None else Some (0, false)
      else None)) ].
(** IsSorted, 2933-2971: stISCallback{1, ...}, one chunked call, result = the flag *)
Definition is_sorted_call (func : Z -> Z -> bool) (n : Z) (h : how) (result : bool) : Prop :=
  exists m', chunk_call (is_sorted_prog func) true n h (fun _ => true) m' /\ result = m' 0.

(** is_sorted, sorting.cpp:126-145, hands numpy's type number to IsSorted, whose switch (2881-2931) takes ATOP type numbers
    (common_inc.h:236-250). How many bytes an item is taken to have, and how it is compared; None: "does not understand". *)
Inductive is_sorted_as := AsInt (signed : bool) (bytes : Z) | AsFloat (bytes : Z) | AsString | AsUnicode | AsVoid.
Definition is_sorted_switch (arrayType1 : Z) : option is_sorted_as :=
  match arrayType1 with
  | 0 | 1 => Some (AsInt true 1) | 2 => Some (AsInt false 1)
  | 3 => Some (AsInt true 2) | 4 => Some (AsInt false 2)
  | 5 => Some (AsInt true 4) | 6 => Some (AsInt false 4)
  | 7 => Some (AsInt true 8) | 8 => Some (AsInt false 8)
  | 11 => Some (AsInt false 2)   (* ATOP_HALF_FLOAT: atop_half is uint16_t, halffloat.h:10 *)
  | 12 => Some (AsFloat 4) | 13 => Some (AsFloat 8) | 14 => Some (AsFloat 16)
  | 19 => Some AsString | 20 => Some AsUnicode | 21 => Some AsVoid
  | _ => None
  end.
(** numpy's numbers for the number types with x86-64 sizes (NPY_TYPES): what the item really is; half = 23 *)
Inductive npy_kind := NInt (signed : bool) (bytes : Z) | NFloat (bytes : Z) | NOther.
Definition npy_type (num : Z) : npy_kind :=
  match num with
  | 0 => NInt false 1 | 1 => NInt true 1 | 2 => NInt false 1 | 3 => NInt true 2 | 4 => NInt false 2
  | 5 => NInt true 4 | 6 => NInt false 4 | 7 => NInt true 8 | 8 => NInt false 8 | 9 => NInt true 8 | 10 => NInt false 8
  | 11 => NFloat 4 | 12 => NFloat 8 | 13 => NFloat 16 | 23 => NFloat 2
  | _ => NOther
  end.
(** item i of a byte array, little endian *)
Definition raw_item (bytes : Z) (m : Z -> Z) (i : Z) : Z := le_load (Z.to_nat bytes) (map m (zseq (i * bytes) (Z.to_nat bytes))).
Definition signed_item (bits v : Z) : Z := if v <? 2 ^ (bits - 1) then v else v - 2 ^ bits.
(** IsSorted(pDataIn1, n, npy number, itemSize) for number types, in the calling thread; long double (16 bytes) is not decoded here *)
Definition is_sorted_num (num : Z) (m : Z -> Z) (n : Z) : option bool :=
  match is_sorted_switch num with
  | Some (AsInt s b) => Some (IsSorted_ (fun x y : Z => y <=? x) (fun i => let v := raw_item b m i in if s then signed_item (8 * b) v else v) 0 n)
  | Some (AsFloat 4) => Some (IsSortedFloat decode32 (raw_item 4 m) 0 n)
  | Some (AsFloat 8) => Some (IsSortedFloat decode64 (raw_item 8 m) 0 n)
  | _ => None
  end.
