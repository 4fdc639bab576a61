(** GetItem_Model.v - getitem with integer indices: src/pnumpy/getitem.cpp:597-1290, defaults src/pnumpy/common.cpp:21-76. *)
From Verif Require Import Base Threads_Model Jobs_Model.

(** C's reading of a w-bit pattern as a signed integer *)
Definition sgn (w u : Z) : Z := if u <? 2 ^ (w - 1) then u else u - 2 ^ w.

(** which element is fetched; None: the default value *)
(* GetItemInt, getitem.cpp:616-628, 636-640; GetItemIntVariable, l.734-738, 765-769 *)
Definition int_src (w vlen u : Z) : option Z :=
  let index := sgn w u in
  if (index >=? - vlen) && (index <? vlen) then Some (if index >=? 0 then index else index + vlen) else None.
(* GetItemUInt, l.680-688, 697-701; GetItemUIntVariable, l.807-813, 838-844.  GetItemFunction (l.925-1009) instantiates these
   for the unsigned index dtypes with the SIGNED type of the same width, so the pattern is read as signed. *)
Definition uint_src (w vlen u : Z) : option Z :=
  let index := sgn w u in
  if index <? vlen then Some index else None.

(** the arguments of a GETITEM_FUNC call (l.861), plus the arrays *)
Record getargs (V : Type) := mkGA {
  ga_signed : bool;      (* index dtype is a signed integer type *)
  ga_w : Z;              (* index width in bits *)
  ga_raw : Z -> Z;       (* index array: address -> bit pattern *)
  ga_index : Z;          (* pIndex *)
  ga_sI : Z;             (* strideIndex *)
  ga_val : Z -> V;       (* value array: address -> item (fixed sizes) or byte (variable) *)
  ga_values : Z;         (* pValues *)
  ga_vlen : Z;           (* aValueLength *)
  ga_isz : Z;            (* aValueItemSize *)
  ga_sV : Z;             (* strideValue *)
  ga_out : Z             (* pDataOut *)
}.
Arguments mkGA {V}. Arguments ga_signed {V}. Arguments ga_w {V}. Arguments ga_raw {V}. Arguments ga_index {V}. Arguments ga_sI {V}.
Arguments ga_val {V}. Arguments ga_values {V}. Arguments ga_vlen {V}. Arguments ga_isz {V}. Arguments ga_sV {V}. Arguments ga_out {V}.

Section G.
  Context {V : Type} (g : getargs V).

  Definition src (u : Z) : option Z :=
    if ga_signed g then int_src (ga_w g) (ga_vlen g) u else uint_src (ga_w g) (ga_vlen g) u.

  (* l.609, 671, 727: sizeof(VALUE) == strideValue && sizeof(INDEX) == strideIndex *)
  Definition contig : bool := (ga_isz g =? ga_sV g) && (ga_w g / 8 =? ga_sI g).
  Definition istep : Z := if contig then ga_w g / 8 else ga_sI g.
  Definition vstep : Z := if contig then ga_isz g else ga_sV g.

  (** GetItemInt / GetItemUInt for itemSize 1,2,4,8,16 (one cell per item), called on piece [st, st+len) by
      GetItemCallback (l.900-912: index moved by st*strideIndex, output by st*strideValue) or with st = 0 by getitem itself
      (l.1252).  Item stores are in element order. *)
  Definition item_ws (def : V) (st len : Z) : list (Z * V) :=
    map (fun i =>
      let u := ga_raw g (ga_index g + st * ga_sI g + i * istep) in
      (ga_out g + st * ga_sV g + i * ga_isz g,
       match src u with Some k => ga_val g (ga_values g + k * vstep) | None => def end)) (zrange 0 len).

  (** GetItemIntVariable, l.717-790 (one cell per byte): eight bytes at a time while pDataOut < pEnd - 8, then single bytes.
      An 8-byte store is written as its 8 byte stores. *)
  Definition wide8 : Z := if ga_isz g >? 8 then (ga_isz g - 8 + 7) / 8 else 0.
  Definition var_elem (def : Z -> V) (dst u : Z) : list (Z * V) :=
    let byte b := match src u with Some k => ga_val g (ga_values g + k * vstep + b) | None => def b end in
    flat_map (fun k => map (fun j => (dst + 8 * k + j, byte (8 * k + j))) (zrange 0 8)) (zrange 0 wide8) ++
    map (fun b => (dst + b, byte b)) (zrange (8 * wide8) (ga_isz g)).
  Definition var_ws (def : Z -> V) (st len : Z) : list (Z * V) :=
    flat_map (fun i => var_elem def (ga_out g + st * ga_sV g + i * ga_isz g)
                                (ga_raw g (ga_index g + st * ga_sI g + i * istep))) (zrange 0 len).

  (** GetItemUIntVariable, l.795-858: the copy loops leave pDataOut at pEnd, and l.829/857 add itemSize once more.
      One iteration of the outer loop as a step; the loop stops when pDataOut == pDataOutEnd. *)
  Definition uvar_step (def : Z -> V) (s : Z * Z * (Z -> V)) : Z * Z * (Z -> V) :=
    let '(pout, i, m) := s in
    let u := ga_raw g (ga_index g + i * istep) in
    (pout + ga_isz g + ga_isz g, i + 1, fold_left (fun m av => zupd m (fst av) (snd av)) (var_elem def pout u) m).
  Fixpoint uvar_loop (fuel : nat) (def : Z -> V) (pend : Z) (s : Z * Z * (Z -> V)) : option (Z -> V) :=
    match fuel with
    | O => None
    | S f => if fst (fst s) =? pend then Some (snd s) else uvar_loop f def pend (uvar_step def s)
    end.
  (** the call on the whole array: Some m' if the loop stops within [fuel] tests *)
  Definition uvar_call (fuel : nat) (def : Z -> V) (len : Z) (m : Z -> V) : option (Z -> V) :=
    uvar_loop fuel def (ga_out g + len * ga_isz g) (ga_out g, 0, m).
End G.

(** GetDefaultForType, common.cpp:39-76: size in bytes of the object whose address is returned; None: dtype not listed, the
    8-byte gDefaultInt64 *)
Inductive npytype := TBool | TInt (w : Z) | TUInt (w : Z) | TFloat | TDouble | TLongDouble | TComplex64 | TComplex128
                   | TString (size : Z) | TUnicode (size : Z) | TVoid (size : Z).
Definition npy_itemsize (t : npytype) : Z :=
  match t with
  | TBool => 1 | TInt w => w / 8 | TUInt w => w / 8 | TFloat => 4 | TDouble => 8 | TLongDouble => 16
  | TComplex64 => 8 | TComplex128 => 16 | TString s => s | TUnicode s => s | TVoid s => s
  end.
Definition default_object_size (t : npytype) : Z :=
  match t with
  | TFloat => 4 | TLongDouble => 8 | TDouble => 8 | TBool => 1 | TInt w => w / 8 | TUInt w => w / 8
  | TString _ => 1024 | TUnicode _ => 1024
  | TComplex64 => 8 | TComplex128 => 8 | TVoid _ => 8
  end.
