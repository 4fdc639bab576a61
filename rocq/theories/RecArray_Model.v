(** RecArray_Model.v - record array to columns: src/atop/recarray.cpp:38-216, src/pnumpy/conversions.cpp:22-104,
    src/pnumpy/recarray.py:11-66.  Memory is byte-granular; the record array does not overlap the columns (the Python wrapper
    allocates them with np.empty), so its bytes are a constant function. *)
From Verif Require Import Base Threads_Model Jobs_Model.

(** stRecarrayOffsets *)
Record field := mkField { fpData : Z; fOffset : Z; fItemsize : Z }.

(** reading an int32 pattern as signed: the gather index lanes, recarray.cpp:47-48 *)
Definition int32 (x : Z) : Z := let u := x mod 2 ^ 32 in if u <? 2 ^ 31 then u else u - 2 ^ 32.

Section Conv.
  Context {V : Type} (rec : Z -> V) (pStart itemSize : Z).

  (* l.43-46; an item size of 0 divides by zero: the theorems exclude it, RecCall_Model.v says what a call does then *)
  Definition CHUNKROWS : Z := let c := 32768 / (itemSize * 2) in if c <? 1 then 1 else c.

  (** bytes of one element: [dst] and [srcp] are byte addresses *)
  Definition elem_bytes (sz dst srcp : Z) : list (Z * V) := map (fun b => (dst + b, rec (srcp + b))) (zrange 0 sz).

  (** l.93-96 / 108-111: one gather of [lanes] elements of [sz] bytes at row [r]; lane j reads at index (int32)itemSize*j *)
  Definition gather_bytes (f : field) (lanes sz r : Z) : list (Z * V) :=
    flat_map (fun j => elem_bytes sz (fpData f + r * fItemsize f + sz * j)
                                     (pStart + fOffset f + r * itemSize + int32 (int32 itemSize * j))) (zrange 0 lanes).

  (** number of iterations of "while (startRow < endSub) startRow += step" *)
  Definition wide_iters (startRow endSub step : Z) : Z := if startRow <? endSub then (endSub - startRow + step - 1) / step else 0.

  Definition rows_bytes (f : field) (r0 r1 : Z) : list (Z * V) :=
    flat_map (fun r => elem_bytes (fItemsize f) (fpData f + r * fItemsize f) (pStart + fOffset f + r * itemSize)) (zrange r0 r1).

  (** l.74-137: one field over rows [startRow, endRow); returns the value startRow has afterwards and the stores.
      The default case (l.119-133) copies 8 bytes at a time and then single bytes: the same bytes in the same order. *)
  Definition conv_field (f : field) (startRow endRow : Z) : Z * list (Z * V) :=
    let wide lanes sz :=
      let k := wide_iters startRow (endRow - lanes) lanes in
      let r := startRow + lanes * k in
      (Z.max r endRow,
       flat_map (fun i => gather_bytes f lanes sz (startRow + lanes * i)) (zrange 0 k) ++ rows_bytes f r endRow) in
    if fItemsize f =? 4 then wide 8 4
    else if fItemsize f =? 8 then wide 4 8
    else (Z.max startRow endRow, rows_bytes f startRow endRow).

  (** l.50-141: the outer loop.  startRow only moves inside the loop over the fields: with no field it stays. *)
  Fixpoint conv_loop (fuel : nat) (fields : list field) (startRow totalRows : Z) : option (list (Z * V)) :=
    match fuel with
    | O => None
    | S fu =>
        if startRow <? totalRows then
          let endRow := if startRow + CHUNKROWS >? totalRows then totalRows else startRow + CHUNKROWS in
          let origRow := startRow in
          let r := fold_left (fun acc f => let c := conv_field f origRow endRow in (fst c, snd acc ++ snd c)) fields (startRow, []) in
          match conv_loop fu fields (fst r) totalRows with Some ws => Some (snd r ++ ws) | None => None end
        else Some []
    end.

  (** ConvertRecArray(pStart, startRow, totalRows, ...), with enough fuel for every row to take a round of its own *)
  Definition convert (fields : list field) (startRow totalRows : Z) : list (Z * V) :=
    match conv_loop (S (Z.to_nat (totalRows - startRow))) fields startRow totalRows with Some ws => ws | None => [] end.

  (** RecArrayToColMajor, l.147-216; [threader]: THREADER is not null.  [h]: how DoMultiThreadedWork ran. *)
  Definition rec_to_colmajor (fields : list field) (totalRows : Z) (threader : bool) (h : how) (m m' : memory V) : Prop :=
    if threader && (totalRows >? 16384) then
      (* l.175 and the cast to int at l.210 *)
      let items := int32 ((totalRows + (16384 - 1)) / 16384) in
      index_call (fun w =>
        let startRow := w * 16384 in
        let e := if startRow + 16384 >? totalRows then totalRows else startRow + 16384 in
        map wr (convert fields startRow e)) tt items h m m'
    else m' = run_ops tt (map wr (convert fields 0 totalRows)) m.
End Conv.

(** ---- the Python wrapper, recarray.py:11-66 ---- *)
Inductive pyresult := PyReturns | PyRaisesNameError | PyRaisesAttributeError.
(** names bound when line 38 runs: parameters, imports and the locals assigned so far *)
Definition wrapper_names : list (list Z) :=
  map (map Z.of_nat)
  [ [105;116;101;109]                         (* item *)
  ; [112;97;114;97;108;108;101;108]           (* parallel *)
  ; [119;97;114;110;105;110;103;115]          (* warnings *)
  ; [110;112]                                 (* np *)
  ; [108;105;115;116;95;116;121;112;101;115]  (* list_types *)
  ; [115;117;99;99;101;115;115]               (* success *)
  ; [116]; [118;97;108]; [100]                (* t, val, d *)
  ; [95;114;101;99;97;114;114;97;121;95;116;111;95;99;111;108;109;97;106;111;114] (* _recarray_to_colmajor *)
  ; [114;101;99;97;114;114;97;121;95;116;111;95;99;111;108;109;97;106;111;114] (* recarray_to_colmajor *)
  ; [95;95;97;108;108;95;95]                  (* __all__ *)
  ]%nat.
(** the name tested at line 38: "successs" *)
Definition tested_name : list Z := map Z.of_nat [115;117;99;99;101;115;115;115]%nat.
Definition name_eqb (a b : list Z) : bool := if list_eq_dec Z.eq_dec a b then true else false.
(** line 29: item.dtype.fields is None for a void dtype without fields *)
Definition py_wrapper (is_void has_fields : bool) : pyresult :=
  if is_void then
    if has_fields then if existsb (name_eqb tested_name) wrapper_names then PyReturns else PyRaisesNameError
    else PyRaisesAttributeError
  else PyReturns.
