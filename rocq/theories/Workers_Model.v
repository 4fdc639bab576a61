(** Workers_Model.v - atop_setworkers and atop_info (src/pnumpy/_pnumpy.cpp:1786-1850): the thread limit kept in the slot of each hooked
    ufunc and dtype, reached through the dictionary AddToDict fills (l.1239-1268), and the limit a call of a loop passes to WorkMain
    (l.697, 711, 789, 856, 923, 987), with initialize(), atop_enable() and atop_disable() in between.
    Simplified: the fields of the dictionary atop_info builds other than MaxThreads and MinElementsToThread are left out; dtype and workers are
    C ints (PyArg_ParseTuple raises OverflowError for larger Python ints); the thread pool exists, as it does once the module is loaded.
    Not modelled: the same field of the sort, argmax and arange slots, which nothing but newinit writes (l.1577-1621). *)
From Coq Require Import String.
From Verif Require Import Base Kernel_Model Hooks_Model Dispatch_Model.
Local Open Scope Z_scope.

Section Workers.
  Variable obj : string -> Z.
  Variable has_loop : Z -> Z -> Z -> bool.
  (** process: NumPy's loops, the dictionary and the flag Initialized; g_Settings.AtopEnabled; MaxThreads of the slots of the four tables *)
  Record wstate := mkW { proc : process; enabled : bool; max_threads : cat -> Z -> Z -> Z }.
  (** statics are zero; AtopEnabled starts TRUE, l.348 *)
  Definition wstart : wstate := mkW started true (fun _ _ _ => 0).

  Inductive wcall := WInit (avx2 : bool) | WEnable | WDisable | WSetWorkers (name : string) (d w : Z) | WInfo (name : string) (d : Z) | WInfoAll.
  (** WNull: NULL returned with no exception set (the interpreter raises SystemError) *)
  Inductive wreply := WNone | WFalse | WInt (z : Z) | WDict (max min : Z) | WKeys (ks : list (string * Z)) | WNull | WRaised.

  (** the slot is one of those a new AddToDict entry points to *)
  Definition slot_is (c : cat) (op a : Z) (e : string * Z * (cat * Z * Z)) : bool :=
    let '(_, _, (c', op', a')) := e in cat_eqb c c' && (op =? op') && (a =? a').
  (** MaxThreads = 3 next to each AddToDict, l.1373, 1429, 1484; 7 for the trig functions, l.1544 *)
  Definition first_threads (c : cat) : Z := match c with Trig => 7 | _ => 3 end.

  Definition step (s : wstate) (q : wcall) : wstate * wreply :=
    match q with
    | WInit avx2 =>                                                            (* newinit *)
        let '(p, a) := newinit obj has_loop avx2 (proc s) in
        let writes := negb (initialized (proc s)) && avx2 in
        (mkW p (enabled s) (fun c op x => if writes && existsb (slot_is c op x) (dict (hooked p)) then first_threads c else max_threads s c op x),
         match a with ReturnsNone => WNone | _ => WRaised end)
    | WEnable => (mkW (proc s) true (max_threads s), WNone)                    (* l.1767-1770 *)
    | WDisable => (mkW (proc s) false (max_threads s), WNone)                  (* l.1773-1776 *)
    | WSetWorkers name d w =>                                                  (* l.1825-1846 *)
        if enabled s then
          match get_from_dict (hooked (proc s)) name d with
          | Some (c, op, a) =>
              if (0 <=? w) && (w <? 64)
              then (mkW (proc s) (enabled s) (fun c' op' a' => if cat_eqb c' c && (op' =? op) && (a' =? a) then w else max_threads s c' op' a'),
                    WInt (max_threads s c op a))
              else (s, WFalse)
          | None => (s, WFalse)
          end
        else (s, WFalse)
    | WInfo name d =>                                                          (* l.1801-1815 *)
        match get_from_dict (hooked (proc s)) name d with
        | Some (c, op, a) => (s, WDict (max_threads s c op a) 0)
        | None => (s, WFalse)
        end
    | WInfoAll =>                                                              (* l.1796-1800; gpUnaryDict is NULL until newinit creates it, l.1318 *)
        (s, if initialized (proc s) then WKeys (map fst (dict (hooked (proc s)))) else WNull)
    end.
  Fixpoint run (s : wstate) (h : list wcall) : wstate := match h with [] => s | q :: h' => run (fst (step s q)) h' end.
  (** the limit a call of NumPy's loop (u, d, o) runs its chunks under; None: NumPy's own loop, no pnumpy threads *)
  Definition loop_threads (s : wstate) (u d o : Z) : option Z :=
    match loops (hooked (proc s)) u d o with Stub c op a => Some (max_threads s c op a) | Np _ _ _ => None end.
End Workers.
