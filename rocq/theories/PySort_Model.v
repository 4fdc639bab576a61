(** PySort_Model.v - the Python functions pn.sort, pn.argsort, pn.argmin, pn.argmax and pn.searchsorted, src/pnumpy/sort.py:17-45, 196-212,
    403, 483, 563, 636.

    The world is a set of arrays; a Python function is a transformer of the world that returns or raises.  What the methods of ndarray
    do is a parameter ([method], [bound], [converted]): NumPy's code with pnumpy's hooks, C57 and C70. *)
From Coq Require Import String.
From Verif Require Import Base.

Inductive exn := TypeError | NameError | Other.
Inductive outcome (A : Type) := Ok (a : A) | Raise (e : exn).
Arguments Ok {A}. Arguments Raise {A}.

Section Sort.
  Context {T kind order : Type}.
  (** an array: its shape and its items in C order *)
  Record ndarray := mkArr { shape : list Z; items : list T }.
  (** the arrays numbered below [next] exist *)
  Record world := mkW { arr : nat -> ndarray; next : nat }.
  Definition py (A : Type) := world -> world * outcome A.
  Definition ret {A} (a : A) : py A := fun w => (w, Ok a).
  Definition bind {A B} (m : py A) (f : A -> py B) : py B := fun w => match m w with (w', Ok a) => f a w' | (w', Raise e) => (w', Raise e) end.
  Definition try {A} (m : py A) (handler : py A) : py A := fun w => match m w with (w', Ok a) => (w', Ok a) | (w', Raise _) => handler w' end.
  Definition alloc (a : ndarray) : py nat := fun w => (mkW (fun i => if Nat.eqb i (next w) then a else arr w i) (S (next w)), Ok (next w)).

  (** an argument: an array, or something asanyarray makes an array of (a list, a number) or refuses *)
  Inductive obj := Arr (id : nat) | Like (c : outcome ndarray).
  Definition asanyarray (o : obj) : py nat := match o with Arr id => ret id | Like (Ok a) => alloc a | Like (Raise e) => fun w => (w, Raise e) end.
  Definition flatten (id : nat) : py nat := fun w => alloc (mkArr [Z.of_nat (List.length (items (arr w id)))] (items (arr w id))) w.
  Definition copy (id : nat) : py nat := fun w => alloc (arr w id) w.

  (** a.sort(axis, kind, order): what is in the array afterwards, and the exception if it raises *)
  Variable method : ndarray -> Z -> kind -> option order -> ndarray * option exn.
  Definition sort_method (id : nat) (axis : Z) (k : kind) (ord : option order) : py unit := fun w =>
    let '(a, e) := method (arr w id) axis k ord in
    (mkW (fun i => if Nat.eqb i id then a else arr w i) (next w), match e with None => Ok tt | Some e => Raise e end).

  (** sort, sort.py:196-212.  [axis] None: Python's None.  The call of sort in line 203 is a call of this function with axis -1, that is
      of its else branch: *)
  Definition sort_axis (o : obj) (axis : Z) (k : kind) (ord : option order) : py nat :=
    bind (asanyarray o) (fun a => bind (copy a) (fun a => bind (sort_method a axis k ord) (fun _ => ret a))).
  Definition sort (o : obj) (axis : option Z) (k : kind) (ord : option order) : py nat :=
    match axis with
    | Some ax => sort_axis o ax k ord
    | None =>
        bind (asanyarray o) (fun a => bind (flatten a) (fun a =>
          try (bind (sort_axis (Arr a) (-1) k None) (fun _ => ret a))
              (bind (sort_method a (-1) k ord) (fun _ => ret a))))
    end.
End Sort.

(** ---------- _wrapfunc, sort.py:17-45 ---------- *)
(** the names the module defines: its imports (1-11) and functions; Python's builtins do not have [mu] either *)
Definition module_names : list string :=
  ["os"; "sys"; "__all__"; "getitem"; "lexsort32"; "lexsort64"; "np"; "asarray"; "array"; "asanyarray"; "concatenate"; "_wrapit"; "_wrapfunc";
   "sort"; "lexsort"; "argsort"; "_argmax_dispatcher"; "argmax"; "_argmin_dispatcher"; "argmin"; "_searchsorted_dispatcher"; "searchsorted"]%string.
Definition lookup (name : string) : outcome unit := if existsb (String.eqb name) module_names then Ok tt else Raise NameError.

Section Wrap.
  Context {R : Type}.
  (** the object and the call: what its own method gives (None: it has no such method), what the method of asarray(obj) gives, and its
      __array_wrap__ if it has one *)
  Record target := mkTarget { bound : option (outcome R); converted : outcome R; wrap : option (R -> R) }.
  Definition _wrapit (o : target) : outcome R :=
    match converted o with
    | Raise e => Raise e
    | Ok r => match wrap o with
              | None => Ok r
              | Some wr => match lookup "mu" with Raise e => Raise e | Ok _ => Ok (wr r) end     (* isinstance(result, mu.ndarray) *)
              end
    end.
  Definition _wrapfunc (o : target) : outcome R :=
    match bound o with
    | None => _wrapit o
    | Some (Raise TypeError) => _wrapit o
    | Some r => r
    end.
End Wrap.
