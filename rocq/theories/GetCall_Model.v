(** GetCall_Model.v - indexing as it is called from Python: pn.getitem(values, index[, default]), src/pnumpy/getitem.cpp:219-291,
    557-575, 1039-1187, with the default value (GetDefaultForType and ConvertScalarObject, src/pnumpy/common.cpp:19-76, 228-465), the
    result array (AllocateLikeResize, common.cpp:107-169), and a[i] after pn.hook_enable(): GetItemHook, src/pnumpy/_pnumpy.cpp:1681-1709.
    The loops are in Mask_Model.v and GetItem_Model.v. *)
From Verif Require Import Base Threads_Model Jobs_Model Kernel_Model Float_Model Compare_Model Unary_Model Round_Model Arith_Model
  Layout_Model Mask_Model GetItem_Model.

(** a NumPy array: dtype number (NPY_...), item size, byte-swapped dtype, dtype with more to it than number and size (fields, a datetime
    unit), shape, strides, address of the first element, memory *)
Record nda := mkND { d_dt : Z; d_item : Z; d_swap : bool; d_extra : bool; d_dims : list Z; d_str : list Z; d_off : Z; d_mem : Z -> Z }.
Definition lay (a : nda) : layout := mkLayout (d_dims a) (d_str a) (d_item a).
Definition ndim (a : nda) : Z := Z.of_nat (length (d_dims a)).

(** Python objects as far as the functions look at them; a NumPy bool scalar is an OBool, a NumPy integer scalar an ONpInt *)
Inductive pyobj := ONone | OBool (b : bool) | OInt (z : Z) | ONpInt (z : Z) | OFloat (x : Z) | OBytes (l : list Z) | OStr (l : list Z)
                 | OArr (a : nda) | OTuple (l : list pyobj) | OOther.
(** Refused: NULL with an error set *)
Inductive answer := Crash | Refused | Gives (r : nda).

(** AllocateLikeResize, common.cpp:159-169, 107-152: a new one-dimensional array made from the dtype number and the item size alone *)
Definition like_resize (v : nda) (n : Z) (mem : Z -> Z) : nda := mkND (d_dt v) (d_item v) false false [n] [d_item v] 0 mem.

(** ---------- boolean masks: BooleanIndexInternal ---------- *)
(** l.225-247 *)
Definition mask_checks (v i : nda) : bool :=
  (d_dt i =? 0) && ((ndim i =? 1) || is_c_contiguous (lay i)) && ((ndim v =? 1) || is_c_contiguous (lay v)) &&
  (array_length (lay i) =? array_length (lay v)).
(** the whole; strides come from dimension 0 (l.205, 558-559), whose stride array is NULL if there is no dimension; BooleanCount always
    looks at the mask's, l.557-561 at the values' only if something is selected *)
Definition mask_call (v i : nda) (junk : Z -> Z) (h1 h2 : how) (a : answer) : Prop :=
  if mask_checks v i then
    match d_str i with
    | [] => a = Crash
    | sB :: _ => exists m0 m' total,
        boolean_index (array_length (lay i)) (fun x => d_mem i (d_off i + x)) sB
          (fun x b => d_mem v (x + b)) (d_off v) (hd 0 (d_str v)) 0 (d_item v) junk h1 h2 m0 m' total /\
        a = match d_str v with
            | [] => if total >? 0 then Crash else Gives (like_resize v total (fun x => m' (d_item v * (x / d_item v)) (x mod d_item v)))
            | _ => Gives (like_resize v total (fun x => m' (d_item v * (x / d_item v)) (x mod d_item v)))
            end
    end
  else a = Refused.

(** ---------- default values ---------- *)
(** k little-endian bytes *)
Definition byte_of (x b : Z) : Z := x / 256 ^ b mod 256.
(** the integer dtypes: signed, width *)
Definition int_dtype (dt : Z) : option (bool * Z) :=
  match dt with
  | 1 => Some (true, 8) | 2 => Some (false, 8) | 3 => Some (true, 16) | 4 => Some (false, 16) | 5 => Some (true, 32) | 6 => Some (false, 32)
  | 7 => Some (true, 64) | 8 => Some (false, 64) | 9 => Some (true, 64) | 10 => Some (false, 64) | _ => None
  end.
(** GetDefaultForType, common.cpp:19-76: pattern and size of the object pointed to; strings: 1024 zero bytes *)
Definition type_default (dt : Z) : Z * Z :=
  match dt with
  | 11 => (2143289344, 4)                          (* gDefaultFloat = NAN *)
  | 12 | 13 => (9221120237041090560, 8)            (* gDefaultDouble = NAN, also for long double *)
  | 0 => (0, 1) | 1 => (128, 1) | 3 => (32768, 2) | 5 => (2147483648, 4) | 7 | 9 => (9223372036854775808, 8)
  | 2 => (255, 1) | 4 => (65535, 2) | 6 => (4294967295, 4) | 8 | 10 => (18446744073709551615, 8)
  | 18 | 19 => (0, 1024)
  | _ => (9223372036854775808, 8)
  end.
(** C conversions of a 64-bit integer: (float)value, (double)value *)
Definition of_int (f : fmt) (v : Z) : Z := put_sign f (v <? 0) (rnd_mag f (Z.abs v * unit_value f) 1).
(** (float)value of a double *)
Definition to_single (x : Z) : Z :=
  if is_nan DBL x then q_nan FLT else if is_inf DBL x then put_sign FLT (fneg DBL x) (finf FLT)
  else put_sign FLT (fneg DBL x) (rnd_mag FLT (mag_value DBL (fmag DBL x) * unit_value FLT) (unit_value DBL)).
(** cvttsd2si to w bits: truncation; -2^(w-1) for a NaN or a value out of range *)
Definition trunc_of (x : Z) : Z := Z.quot (signed_value DBL x) (unit_value DBL).
Definition cvtt (w x : Z) : Z :=
  if is_nan DBL x || is_inf DBL x then - 2 ^ (w - 1)
  else let t := trunc_of x in if (- 2 ^ (w - 1) <=? t) && (t <? 2 ^ (w - 1)) then t else - 2 ^ (w - 1).
(** (T)value of a double as gcc compiles it for x86-64; out of range it is undefined in C++ *)
Definition double_to_int (signed : bool) (w x : Z) : Z :=
  if w <=? 16 then cvtt 32 x
  else if w =? 32 then (if signed then cvtt 32 x else cvtt 64 x)
  else if signed then cvtt 64 x
  else if is_nan DBL x || (signed_value DBL x <? 2 ^ 63 * unit_value DBL) then cvtt 64 x
  else if is_inf DBL x then - 2 ^ 63 + 2 ^ 63
  else (let t := trunc_of x - 2 ^ 63 in if t <? 2 ^ 63 then t else - 2 ^ 63) + 2 ^ 63.
(** ConvertScalarObject, common.cpp:228-465.  Filled x k: the k-byte pattern x repeated over the first 32 bytes; Untouched: TRUE although
    nothing was stored (bytes and str: only the pointer ppDataIn points to is set); Fails: FALSE *)
Inductive conv := Filled (x k : Z) | Untouched | Fails.
Definition from_int (dt value value2 : Z) : conv :=
  match dt with
  | 0 => Filled (value mod 2 ^ 8) 1
  | 11 => Filled (of_int FLT value) 4
  | 12 => Filled (of_int DBL value) 8
  | _ => match int_dtype dt with Some (s, w) => Filled ((if s then value else value2) mod 2 ^ w) (w / 8) | None => Fails end
  end.
Definition convert (d : pyobj) (dt : Z) : conv :=
  match d with
  | OBool b => let v := if b then 1 else 0 in from_int dt v v
  | OInt z =>                                                    (* PyLong_AsLongLongAndOverflow: -1 on overflow *)
      let over := (z <? - 2 ^ 63) || (2 ^ 63 <=? z) in
      let value := if over then -1 else z in
      let value2 := if (0 <=? value) || (2 ^ 63 <=? z) then z mod 2 ^ 64 else value mod 2 ^ 64 in
      from_int dt value value2
  | ONpInt z => from_int dt (sgn 64 (z mod 2 ^ 64)) (z mod 2 ^ 64)
  | OFloat x =>
      match dt with
      | 0 => Filled (cvtt 32 x mod 2 ^ 8) 1
      | 11 => Filled (to_single x) 4
      | 12 => Filled x 8
      | 13 => Filled x 8                                         (* _mm256_set1_pd of the double *)
      | _ => match int_dtype dt with Some (s, w) => Filled (double_to_int s w x mod 2 ^ w) (w / 8) | None => Fails end
      end
  | OBytes _ | OStr _ => Untouched
  | _ => Fails
  end.
(** l.1122-1141: byte b of what pDefault points to.  [stack]: the uninitialised bytes of tempDefault, [behind]: the bytes behind the
    default object of the type *)
Definition default_byte (d : pyobj) (dt : Z) (stack behind : Z -> Z) (b : Z) : Z :=
  let of_type := let '(x, k) := type_default dt in if b <? k then byte_of x b else behind b in
  match d with
  | ONone => of_type
  | _ => match convert d dt with
         | Filled x k => if b <? 32 then byte_of x (b mod k) else stack b
         | Untouched => stack b
         | Fails => of_type
         end
  end.

(** ---------- pn.getitem ---------- *)
(** l.1046-1065: two arrays, or two arrays and any object *)
Definition parse (args : pyobj) : option (nda * nda * pyobj) :=
  match args with
  | OTuple [OArr v; OArr i] => Some (v, i, ONone)
  | OTuple [OArr v; OArr i; d] => Some (v, i, d)
  | _ => None
  end.
Definition fixed_item (k : Z) : bool := (k =? 1) || (k =? 2) || (k =? 4) || (k =? 8) || (k =? 16).
(** how the call was run: the mask path has two threaded passes, the others one *)
Record run := mkRun { r1 : how; r2 : how; r_junk : Z -> Z; r_stack : Z -> Z; r_behind : Z -> Z }.
(** Simplified: allocation succeeds.  The unsigned loop for other item sizes (GetItemUIntVariable) only when run by the caller alone. *)
Definition getitem_call (args : pyobj) (r : run) (a : answer) : Prop :=
  match parse args with
  | None => a = Refused
  | Some (v, i, d) =>
      if 13 <? d_dt i then a = Refused
      else if d_dt i =? 0 then mask_call v i (r_junk r) (r1 r) (r2 r) a
      else match accepted_stride (lay v), accepted_stride (lay i) with
           | Some sV, Some sI =>
               match int_dtype (d_dt i) with
               | None => a = Refused
               | Some (signed, w) =>
                   let n := array_length (lay i) in
                   let args V (val : Z -> V) := mkGA signed w (fun x => ld (w / 8) (d_mem i) x) (d_off i) sI val (d_off v)
                                                     (array_length (lay v)) (d_item v) sV 0 in
                   let def := default_byte d (d_dt v) (r_stack r) (r_behind r) in
                   if fixed_item (d_item v) then
                     exists m0 m', chunk_call (wprog (item_ws (args (Z -> Z) (fun x b => d_mem v (x + b))) def)) tt n (r1 r) m0 m' /\
                       a = Gives (like_resize v n (fun x => m' (d_item v * (x / d_item v)) (x mod d_item v)))
                   else if signed then
                     exists m0 m', chunk_call (wprog (var_ws (args Z (d_mem v)) def)) tt n (r1 r) m0 m' /\ a = Gives (like_resize v n m')
                   else exists m0 m' fuel, r1 r = Alone /\ uvar_call (args Z (d_mem v)) fuel def n m0 = Some m' /\ a = Gives (like_resize v n m')
               end
           | _, _ => a = Refused
           end
  end.

(** ---------- a[i] after hook_enable() ---------- *)
(** GetItemHook, _pnumpy.cpp:1681-1709.  For an index array that is not boolean it calls getitem(aValues, aIndex), the function above,
    with the index array in place of the argument tuple.  [numpy]: NumPy's own subscript. *)
Definition hooked_index (v : nda) (idx : pyobj) (numpy : answer -> Prop) (r : run) (a : answer) : Prop :=
  let or_numpy (own : answer -> Prop) := exists x, own x /\ match x with Refused => numpy a | _ => a = x end in
  match idx with
  | OArr i => if d_dt i =? 0 then or_numpy (mask_call v i (r_junk r) (r1 r) (r2 r))
              else if d_dt i <=? 13 then or_numpy (getitem_call (OArr i) r)
              else numpy a
  | _ => numpy a
  end.
