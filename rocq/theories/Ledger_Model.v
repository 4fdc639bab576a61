(** Ledger_Model.v - the ledger's ring buffer, src/pnumpy/ledger.cpp:141-273.

    LedgerRecord and LedgerRecord2 take the next slot (GetNextEntry, 184-186: an ordinary read of Tail and a write of Tail+1, no
    lock) and then fill its fields one by one.  NumPy releases the GIL around large ufunc loops, so records of several Python
    threads interleave.  Not modelled: the printf, StrName/StartTime/TotalTime (Init sets them to 0 and nothing else writes them),
    the overflow of the 64-bit Tail. *)
From Coq Require Import String.
From Verif Require Import Base Hooks_Model.
Local Open Scope Z_scope.

(** ledger.cpp:160-161 *)
Definition RING_BUFFER_SIZE : Z := 8096.
Definition RING_BUFFER_MASK : Z := 8095.

(** the fields a record writes, ledger.cpp:225-241, 258-268: ArrayGroup, ArrayOp, AType, StrCatName, StrOpName, ArrayLength1, ArrayLength2 *)
Record entry := mkEntry { e_group : Z; e_op : Z; e_type : Z; e_cat : string; e_name : string; e_len1 : Z; e_len2 : Z }.
(** LedgerQueue (absent: never written since LedgerInit, ledger.cpp:170-180) and Tail *)
Record ledger := mkLedger { queue : Z -> option entry; tail : Z }.
Definition LedgerInit : ledger := mkLedger (fun _ => None) 0.

(** RING_BUFFER_MASK & Tail, ledger.cpp:185 *)
Definition slot (t : Z) : Z := Z.land RING_BUFFER_MASK t.
(** one record made without interference *)
Definition record (e : entry) (l : ledger) : ledger := mkLedger (zupd (queue l) (slot (tail l)) (Some e)) (tail l + 1).
Definition records (es : list entry) (l : ledger) : ledger := fold_left (fun l e => record e l) es l.

(** ---- the same with several Python threads: each has a list of records to make ---- *)
(** where a thread is: before the read of Tail, between the read and the write of Tail, between that and the writes of the fields
    (taken as one step: a torn entry is not modelled) *)
Inductive lpc := LReady | LRead (t : Z) | LTaken (t : Z).
Record lstate := mkL { ring : ledger; lpcs : Z -> lpc; todo : Z -> list entry; touched : list Z }.
Definition lstep (c : Z) (s : lstate) : lstate :=
  match todo s c with
  | [] => s
  | e :: es =>
      match lpcs s c with
      | LReady => mkL (ring s) (zupd (lpcs s) c (LRead (tail (ring s)))) (todo s) (touched s)
      | LRead t => mkL (mkLedger (queue (ring s)) (t + 1)) (zupd (lpcs s) c (LTaken t)) (todo s) (touched s)
      | LTaken t => mkL (mkLedger (zupd (queue (ring s)) (slot t) (Some e)) (tail (ring s))) (zupd (lpcs s) c LReady)
                        (zupd (todo s) c es) (slot t :: touched s)
      end
  end.
Definition lrun (sched : list Z) (s : lstate) : lstate := fold_left (fun s c => lstep c s) sched s.
Definition lstart (todo : Z -> list entry) : lstate := mkL LedgerInit (fun _ => LReady) todo [].

(** ---- the names: g_str_ufunc_name, ledger.cpp:192-209 ---- *)
Definition MAX_FUNCOP : Z := 40.
Definition mapping (c : cat) : list (string * Z) :=
  match c with Binary => gBinaryMapping | Compare => gCompareMapping | Unary => gUnaryMapping | Trig => gTrigMapping end.
(** the inner loop of LedgerInit for one category: later entries overwrite earlier ones *)
Definition ufunc_names (c : cat) : Z -> option string :=
  fold_left (fun tbl e => let k := snd e in if (0 <=? k) && (k <? MAX_FUNCOP) then zupd tbl k (Some (fst e)) else tbl) (mapping c) (fun _ => None).
(** "Check for reduce operation", ledger.cpp:234-236; StrName of gOpCategory, _pnumpy.cpp:193-197 *)
Definition cat_name (c : cat) (is_reduce : bool) : string :=
  match c with Binary => if is_reduce then "Reduce" else "Binary" | Unary => "Unary" | Compare => "Compare" | Trig => "TrigLog" end.
Definition cat_number (c : cat) : Z := match c with Binary => 0 | Unary => 1 | Compare => 2 | Trig => 3 end.
(** LedgerRecord, ledger.cpp:215-245: what is stored for a call of the hooked loop (c, op, atype); None: the name pointer would be NULL
    (dimensions[1] is one past NumPy's array of one dimension: whatever is there, [beyond]) *)
Definition LedgerRecord (c : cat) (is_reduce : bool) (op atype len beyond : Z) : option entry :=
  match ufunc_names c op with
  | None => None
  | Some name => Some (mkEntry (cat_number c) op atype (cat_name c is_reduce) name len beyond)
  end.
