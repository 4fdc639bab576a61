(** LexCall_Model.v - pn.lexsort, lexsort32, lexsort64 as they are called from Python: which arguments are accepted, what is
    read from them, the keywords index=, cutoffs= and kind=.  src/pnumpy/sorting.cpp:163-520, src/pnumpy/common.cpp:545-772,
    src/pnumpy/sort.py:290-294.  The sorts themselves are in Sort_Model.v, SortCmp_Model.v and ParSort_Model.v. *)
From Coq Require Import SpecFloat.
From Verif Require Import Base Threads_Model Jobs_Model Sort_Model SortCmp_Model ParSort_Model SortHook_Model Kernel_Model.

(** * Python arguments *)
(** a NumPy array: dtype number, item size, number of dimensions, length, where item 0 is in its buffer, the distance of its items in bytes,
    the flag C_CONTIGUOUS or F_CONTIGUOUS as NumPy sets it, whether the dtype is byte-swapped, and the bytes of the buffer *)
Record arr := mkArr { a_dt : Z; a_item : Z; a_ndim : Z; a_len : Z; a_off : Z; a_stride : Z; a_flag : bool; a_swap : bool; a_bytes : Z -> Z }.
Inductive pyval := PNone | PArr (a : arr) | PList (l : list pyval) | PTuple (l : list pyval) | POther.

(** NPY_* to ATOP_*: convert_dtype_to_atop, _pnumpy.cpp:7-26, 58-63 (64-bit long); ATOP_TYPES, common_inc.h:236-247.
    Entries behind the table are not reached: user dtypes begin at 256. *)
Definition atop_of (dt : Z) : Z :=
  if (0 <=? dt) && (dt <=? 23) then
    nth (Z.to_nat dt) [0; 1; 2; 3; 4; 5; 6; 7; 8; 7; 8; 12; 13; 14; 16; 17; 18; -1; 19; 20; 21; -1; -1; 11] (-1)
  else -1.
(** sizes of the C types the sorts are instantiated with, sort.cpp:2305-2330 *)
Definition c_size (t : Z) : Z := nth (Z.to_nat t) [1; 1; 1; 2; 2; 4; 4; 8; 8; 16; 16; 2; 4; 8; 16] 0.

(** * Items of an array *)
(** a number of k bytes at address x, little endian or, if [sw], big endian *)
Definition number_at (sw : bool) (k : Z) (m : Z -> Z) (x : Z) : Z := let v := ld k m x in if sw then bswap (Z.to_nat k) v else v.
(** x87 extended precision: 64-bit significand with explicit leading bit, 15-bit exponent, sign; an unnormal is an invalid operand *)
Definition decode80 (b : Z) : spec_float :=
  let s := Z.testbit b 79 in let e := (b / 2 ^ 64) mod 2 ^ 15 in let f := b mod 2 ^ 64 in
  if e =? 32767 then (if f =? 2 ^ 63 then S754_infinity s else S754_nan)
  else match f with
       | Zpos p => if e =? 0 then S754_finite s p (-16445) else if f <? 2 ^ 63 then S754_nan else S754_finite s p (e - 16446)
       | _ => if e =? 0 then S754_zero s else S754_nan
       end.
(** item r of the array, of ATOP type t, its bytes in native order or reversed *)
Definition units (sw : bool) (k cnt : Z) (m : Z -> Z) (x : Z) : list Z := map (fun i => number_at sw k m (x + i * k)) (zrange 0 cnt).
Definition signed_t (t : Z) : bool := (t =? 1) || (t =? 3) || (t =? 5) || (t =? 7).
Inductive key_kind := KKInt | KKFlt | KKStr.
Definition kind_of (t : Z) : key_kind := if (t =? 19) || (t =? 20) then KKStr else if (11 <=? t) && (t <=? 14) then KKFlt else KKInt.

(** EnsureContiguousArray, common.cpp:587-602: NumPy copies an array that is not contiguous to a new buffer, dtype (and so the byte order) kept *)
Definition EnsureContiguousArray (a : arr) : arr :=
  if a_flag a then a
  else mkArr (a_dt a) (a_item a) (a_ndim a) (a_len a) 0 (a_item a) true (a_swap a)
             (fun x => a_bytes a (a_off a + x / a_item a * a_stride a + x mod a_item a)).

(** BuildArrayInfo with checkrows and convert, common.cpp:608-772.  None gives an entry of length 0 without an object (664-674).
    PyArray_STRIDE(arr, 0) at 706 dereferences the strides of the array, which NumPy leaves NULL for a 0-d array.
    A freed list of entries is BErr: the error indicator is set. *)
Inductive built := BErr | BCrash | BOk (l : list (option arr)).
Fixpoint build (l : list pyval) : built :=
  match l with
  | [] => BOk []
  | PNone :: r => match build r with BOk l => BOk (None :: l) | b => b end
  | PArr a :: r => let a := EnsureContiguousArray a in
      if a_ndim a =? 0 then BCrash
      else if (a_ndim a =? 1) && (a_item a =? a_stride a) then match build r with BOk l => BOk (Some a :: l) | b => b end
      else BErr
  | _ :: _ => BErr
  end.
Definition info_len (i : option arr) : Z := match i with Some a => a_len a | None => 0 end.
Definition rows_of (l : list (option arr)) : Z := match l with i :: _ => info_len i | [] => 0 end.
(** 751-760 *)
Definition BuildArrayInfo (l : list pyval) : built :=
  match build l with BOk i => if forallb (fun x => info_len x =? rows_of i) i then BOk i else BErr | b => b end.
(** CMultiListPrepare, sorting.cpp:306-369: a list as first positional argument stands for the arguments; a tuple does not *)
Definition key_args (args : list pyval) : list pyval := match args with PList l :: _ => l | _ => args end.

(** * Keywords *)
(** GetCutOffs, sorting.cpp:178-199: not an array: ignored; another dtype than int64: BadCut.  A contiguous array is assumed. *)
Inductive kw_cut := NoCut | BadCut | Cut (l : list Z).
(** GetKwargIndex, 244-274: 32 or 64 bits, length; a contiguous array is assumed (the code does not check it).  Its cells are the cells of the result. *)
Inductive kw_index := NoIndex | BadIndex | Index (bits len : Z).
(** GetKind, 214-242: the first character: q, m, h, s; anything else means the default *)
Definition GetKind (kind : option (list Z)) (def : sort_mode) : sort_mode :=
  match kind with
  | Some (c :: _) => if c =? 113 then QSORT else if c =? 109 then MERGE else if c =? 104 then HEAP else if c =? 115 then MERGE else def
  | _ => def
  end.

(** * lexsort<UINDEX>, sorting.cpp:388-502 *)
(** what a call does: returns None, raises, dereferences NULL or reads outside an array before it sorts anything, or sorts n index cells and returns them *)
Inductive lexres := RNone | RError | RCrash | RSort (n : Z) (p : prog Z unit).

(** 408-416: complex, object, void, datetime and unknown types are refused; float16 (11) is not *)
Definition type_ok (t : Z) : bool := negb ((t =? -1) || ((14 <? t) && negb (t =? 19) && negb (t =? 20))).

(** the key of row r, as the bytes are read.  [n]: rows of the array *)
Definition item_addr (a : arr) (r : Z) : Z := a_off a + r * a_stride a.
Definition int_item (t : Z) (sw : bool) (a : arr) (r : Z) : Z :=
  let v := number_at sw (c_size t) (a_bytes a) (item_addr a r) in if signed_t t then sval (8 * c_size t) v else v.
Definition flt_item (t : Z) (sw : bool) (a : arr) (r : Z) : spec_float :=
  (if t =? 11 then decode16 else if t =? 12 then decode32 else if t =? 13 then decode64 else decode80)
    (number_at sw (c_size t) (a_bytes a) (item_addr a r)).
Definition str_item (t : Z) (sw : bool) (a : arr) (r : Z) : list Z :=
  if t =? 19 then units false 1 (a_item a) (a_bytes a) (item_addr a r) else units sw 4 (a_item a / 4) (a_bytes a) (item_addr a r).

(** SortIndex by type, sort.cpp:2289-2343: the bytes are taken in native order; float16 has no case and -1 is returned, which
    lexsort does not look at (sorting.cpp:475-481) *)
Definition SortIndex_column (n : Z) (i : option arr) : option column :=
  match i with
  | None => Some {| is_string := false; lt_at := LT_at n (fun _ => 0) Z.ltb; rawlt_at := LT_at n (fun _ => 0) Z.ltb |}
  | Some a => let t := atop_of (a_dt a) in
      if t =? 11 then None
      else Some match kind_of t with
        | KKInt => {| is_string := false; lt_at := LT_at n (int_item t false a) Z.ltb; rawlt_at := LT_at n (int_item t false a) Z.ltb |}
        | KKFlt => {| is_string := false; lt_at := LT_at n (flt_item t false a) (lt_float (fun x => x)); rawlt_at := LT_at n (flt_item t false a) (rawlt_float (fun x => x)) |}
        | KKStr => {| is_string := true; lt_at := LT_at n (str_item t false a) STRING_LT; rawlt_at := LT_at n (str_item t false a) STRING_LT |}
        end
  end.

Section Call.
  Variables (F : nat) (bits : Z) (start pw : Z) (lw : Z -> Z).   (* UINDEX, the result's cells, workspaces *)

  (** 446-460: 0, 1, ... in every partition *)
  Fixpoint fill_parts (l : list Z) (pc startPos : Z) : prog Z unit :=
    match l with
    | [] => Ret tt
    | e :: r => fill_range F pc (e - startPos) ;; fill_parts r (pc + Z.max 0 (e - startPos)) e
    end.
  Definition cut_fn (l : list Z) (t : Z) : Z := nth (Z.to_nat t) l 0.

  (** 470-481: one column after the other, in the calling thread *)
  Definition sort_column (mode : sort_mode) (cut : kw_cut) (n : Z) (c : option column) : prog Z unit :=
    match c with
    | None => Ret tt
    | Some c => match cut with
                | Cut l => seq_cutoffs F c (cut_fn l) start lw (Z.of_nat (length l))
                | _ => sort_index F mode c start n pw
                end
    end.
  Fixpoint sort_all (mode : sort_mode) (cut : kw_cut) (n : Z) (cs : list (option column)) : prog Z unit :=
    match cs with [] => Ret tt | c :: cs => sort_column mode cut n c ;; sort_all mode cut n cs end.

  Definition fill_index (cut : kw_cut) (idx : kw_index) (n : Z) : prog Z unit :=
    match cut with
    | Cut l => fill_parts l start 0
    | _ => match idx with NoIndex => fill_range F start n | _ => Ret tt end
    end.

  Definition lexsort_c (args : list pyval) (kind : option (list Z)) (cut : kw_cut) (idx : kw_index) : lexres :=
    let mode := GetKind kind MERGE in
    match BuildArrayInfo (key_args args) with
    | BErr => RError                                                        (* None is returned with the error set: SystemError *)
    | BCrash => RCrash
    | BOk [] => RNone                                                       (* 391, 500-501 *)
    | BOk (i0 :: is) =>
        let infos := i0 :: is in let rows := info_len i0 in
        (* 398-401: pCutOffs[cutOffLength - 1] *)
        match cut with
        | Cut [] => RCrash
        | _ =>
          if match cut with Cut l => negb (last l 0 =? rows) | BadCut => true | NoCut => false end then RError     (* 398-405 *)
          else if negb (forallb (fun i => type_ok (match i with Some a => atop_of (a_dt a) | None => 0 end)) infos) then RError
          else
            let go n := RSort n (fill_index cut idx n ;; sort_all mode cut n (map (SortIndex_column rows) infos)) in
            match idx with
            | BadIndex => RError
            | Index b len =>
                if 0 <? len then if (rows <? len) || negb (b =? bits) then RError else go len
                else match i0 with None => RCrash | Some _ => go rows end
            | NoIndex => match i0 with None => RCrash | Some _ => go rows end    (* AllocateLikeNumpyArray(NULL), 436 *)
            end
        end
    end.
End Call.

(** the loop over the columns with cutoffs (sorting.cpp:470-481, sort.cpp:1934-2000): the partitions of each column by the caller alone or on threads *)
Fixpoint cut_columns_call F (l : list Z) (start : Z) (lw : Z -> Z) (cols : list (column * how)) (m m' : Z -> Z) : Prop :=
  match cols with
  | [] => m' = m
  | (c, h) :: cols => exists m1,
      match h with
      | Alone => exec (fun _ => true) (seq_cutoffs F c (cut_fn l) start lw (Z.of_nat (length l))) m = Finished tt m1
      | Threaded T zz sched => 0 <= T /\
          let s := par_cutoffs F c (cut_fn l) start lw (Z.of_nat (length l)) T zz m sched in cpcs (pc s) 0 = CReturned /\ m1 = pm s
      end /\ cut_columns_call F l start lw cols m1 m'
  end.

(** pn.lexsort, sort.py:290-294: lexsort32; any exception hands the call to np.lexsort *)
Inductive pnres := Native (r : lexres) | NumPy.
Definition pn_lexsort F start pw lw args kind cut idx : pnres :=
  match lexsort_c F 32 start pw lw args kind cut idx with RError => NumPy | r => Native r end.
