(** Layout_Model.v - GetStridesAndContig and CalcArrayLength, src/pnumpy/common.cpp:83-104, 487-536, and the test its callers
    make on the answer (getitem, getitem.cpp:1087-1104; sort, sorting.cpp:546-553).

    int64_t products are not reduced modulo 2^64: the compared products are byte distances inside one array. *)
From Verif Require Import Base.

(** a NumPy array as far as its layout goes: element (i0,i1,...) is at byte [data + i0*stride0 + i1*stride1 + ...] *)
Record layout := mkLayout { dims : list Z; strides : list Z; itemsize : Z }.

(** CalcArrayLength, common.cpp:83-98 *)
Definition array_length (a : layout) : Z := fold_left Z.mul (dims a) 1.

(** the two while loops, common.cpp:507-514 (lists reversed: backwards from the last dimension) and 522-529 (forwards): [cur] is
    curStrideLen, the head of [ss] is the stride of the current dimension; the result is the number of dimensions left at the break *)
Fixpoint walk (cur : Z) (ds ss : list Z) {struct ds} : Z :=
  match ds, ss with
  | d :: ds', _ :: ((s1 :: _) as ss') => if s1 =? cur * d then walk (cur * d) ds' ss' else Z.of_nat (length ss')
  | _, _ => 0
  end.
(** GetStridesAndContig, common.cpp:487-536: (direction, stride) *)
Definition GetStridesAndContig (a : layout) : Z * Z :=
  match strides a with
  | [] => (0, itemsize a)
  | stride :: [] => (0, stride)
  | stride :: _ =>
      let lastStride := last (strides a) 0 in
      if lastStride =? stride then (0, stride)
      else if Z.abs lastStride <? Z.abs stride then (walk lastStride (rev (dims a)) (rev (strides a)), lastStride)
      else (- walk stride (dims a) (strides a), stride)
  end.

(** PyArray_ISCONTIGUOUS as NumPy sets the flag (relaxed strides: the stride of a dimension of length 1 does not matter; an empty
    array is contiguous); [sd] is the expected stride, lists reversed *)
Fixpoint c_contig (sd : Z) (ds ss : list Z) : bool :=
  match ds, ss with
  | d :: ds', s :: ss' => ((d =? 1) || (s =? sd)) && c_contig (sd * d) ds' ss'
  | _, _ => true
  end.
Definition is_c_contiguous (a : layout) : bool := existsb (Z.eqb 0) (dims a) || c_contig (itemsize a) (rev (dims a)) (rev (strides a)).

(** the callers: Some stride - the elements are taken at data + k*stride, k = 0,1,...; None - the call raises *)
Definition accepted_stride (a : layout) : option Z :=
  let '(dir, stride) := GetStridesAndContig a in
  if negb (dir =? 0) && negb (is_c_contiguous a) then None else Some stride.
