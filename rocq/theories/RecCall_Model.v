(** RecCall_Model.v - the native call _pnumpy.recarray_to_colmajor(records, offsets, columns): src/pnumpy/conversions.cpp:15-104,
    exported by src/pnumpy/module_init.cpp:86.  The conversion itself is in RecArray_Model.v. *)
From Verif Require Import Base Threads_Model Jobs_Model RecArray_Model Kernel_Model.

(** a NumPy array: dtype number (NPY_...), item size, shape, strides, address of its first byte *)
Record npa := mkNpa { n_dt : Z; n_item : Z; n_dims : list Z; n_str : list Z; n_data : Z }.
(** a Python object: an array - of objects, if its dtype says so: [slots] i is the object whose pointer is in the i-th 8 bytes of its data -
    or anything else *)
Inductive obj := Arr (a : npa) (slots : Z -> obj) | Other.
Definition as_arr (o : obj) : option npa := match o with Arr a _ => Some a | Other => None end.
(** ArrayLength, common.cpp:83-104 *)
Definition alen (a : npa) : Z := fold_left Z.mul (n_dims a) 1.
(** an int64 of the machine *)
Definition int64_at (m : bytes) (x : Z) : Z := sval 64 (ld 8 m x).

(** what the call does: raises ValueError; undefined behaviour (a struct field of an object that is not an array, the strides of an array without
    dimensions, which are NULL, a division by zero); never returns; returns None with memory [m'] *)
Inductive ans := Raises | Dies | Hangs | Done (m' : bytes).

(** l.84-89: ppArrays[i], taken as an array without looking *)
Fixpoint column_list (slots : Z -> obj) (l : list Z) : option (list npa) :=
  match l with
  | [] => Some []
  | i :: l => match as_arr (slots i), column_list slots l with Some a, Some r => Some (a :: r) | _, _ => None end
  end.
(** l.77-89: the data pointer and item size of each column, the i-th 8 bytes of the offsets *)
Definition field_of (m : bytes) (offs : npa) (i : Z) (c : npa) : field := mkField (n_data c) (int64_at m (n_data offs + 8 * i)) (n_item c).
Fixpoint fields_from (m : bytes) (offs : npa) (i : Z) (l : list npa) : list field :=
  match l with [] => [] | c :: l => field_of m offs i c :: fields_from m offs (i + 1) l end.

Section Call.
  Variables (threader : bool) (h : how) (m : bytes).
  (** l.91-104: RecArrayToColMajor.  The rows are those of all dimensions together (l.67).  An item size of 0 divides by zero
      (recarray.cpp:43, 160); rows but no columns: recarray.cpp:50-141 never ends (C27).
      Simplification: the records do not overlap the columns (the conversion reads the bytes they had before). *)
  Definition convert_call (a : npa) (fields : list field) (r : ans) : Prop :=
    if n_item a =? 0 then r = Dies
    else match fields with
         | [] => if 0 <? alen a then r = Hangs else r = Done m
         | _ => exists m', rec_to_colmajor m (n_data a) (n_item a) fields (alen a) threader h m m' /\ r = Done m'
         end.
  (** l.38-75: three arguments; nothing checks that they are arrays; the checks in their order *)
  Definition rec_call (args : list obj) (r : ans) : Prop :=
    match args with
    | [x; y; z] =>
        match as_arr x with
        | None => r = Dies
        | Some a =>
          match n_str a with
          | [] => r = Dies
          | s0 :: _ =>
            if negb (n_item a =? s0) then r = Raises
            else if negb (n_dt a =? 20) then r = Raises
            else match z with
              | Other => r = Dies
              | Arr c slots =>
                if negb (n_dt c =? 17) then r = Raises
                else match as_arr y with
                  | None => r = Dies
                  | Some o =>
                    if negb (alen c =? alen o) then r = Raises
                    else match column_list slots (zrange 0 (alen c)) with
                      | None => r = Dies
                      | Some cols => convert_call a (fields_from m o 0 cols) r
                      end
                  end
              end
          end
        end
    | _ => r = Raises
    end.
End Call.
