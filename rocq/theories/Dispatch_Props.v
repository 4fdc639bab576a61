(** Dispatch_Props.v - C83: after pnumpy.initialize() the loop of every NumPy ufunc runs the kernel of its own operation, for its own
    type, with NumPy's result type, and every operation pnumpy accelerates is installed; C84: initialize() can be called any number of
    times, and what it does when it fails. *)
From Coq Require Import String.
From Verif Require Import Base Kernel_Model Float_Model Compare_Model Unary_Model Round_Model Arith_Model Trig_Model Hooks_Model Hooks_Props
  Threads_Model Jobs_Model Sort_Model Ufunc_Model UfuncCmp_Model UfuncUn_Model Sqrt_Model RedBytes_Model Dispatch_Model.
Local Open Scope string_scope.
Local Open Scope Z_scope.

(** ---------- specification: what NumPy's names mean ---------- *)
(** the element type of a NumPy dtype number on 64-bit Linux: numpy/ndarraytypes.h, NPY_BOOL = 0 ... NPY_DOUBLE = 12 *)
Definition machine (d : Z) : option cty :=
  match d with
  | 0 => Some (I BOOL) | 1 => Some (I INT8) | 2 => Some (I UINT8) | 3 => Some (I INT16) | 4 => Some (I UINT16) | 5 => Some (I INT32)
  | 6 => Some (I UINT32) | 7 => Some (I INT64) | 8 => Some (I UINT64) | 9 => Some (I INT64) | 10 => Some (I UINT64)
  | 11 => Some FLOAT | 12 => Some DOUBLE | _ => None
  end.
(** an operation: of two numbers (for the integers and for the floats), a comparison, ..., or one no kernel computes *)
Inductive operation :=
| OBinary (i : option ufn) (x : option Arith_Model.fop) | OCompare (c : cop) | OUnary (u : uop) | ORound (r : rop) | OSqrt | OTrig (t : top) | ONumpy.
Definition operations : list (string * operation) :=
  [("add", OBinary (Some ADD) (Some FADD)); ("subtract", OBinary (Some SUB) (Some FSUB)); ("multiply", OBinary (Some MUL) (Some FMUL));
   ("minimum", OBinary (Some MINIMUM) (Some FMIN)); ("maximum", OBinary (Some MAXIMUM) (Some FMAX));
   ("true_divide", OBinary None (Some FDIV)); ("floor_divide", OBinary None (Some FFLOORDIV));
   ("logical_and", OBinary (Some LOGICAL_AND) None); ("logical_or", OBinary (Some LOGICAL_OR) None);
   ("bitwise_and", OBinary (Some BITWISE_AND) None); ("bitwise_or", OBinary (Some BITWISE_OR) None); ("bitwise_xor", OBinary (Some BITWISE_XOR) None);
   ("equal", OCompare CMP_EQ); ("not_equal", OCompare CMP_NE); ("less", OCompare CMP_LT); ("less_equal", OCompare CMP_LTE);
   ("greater", OCompare CMP_GT); ("greater_equal", OCompare CMP_GTE);
   ("abs", OUnary ABS); ("negative", OUnary NEGATIVE); ("sign", OUnary SIGN); ("invert", OUnary INVERT); ("bitwise_not", OUnary INVERT);
   ("logical_not", OUnary LOGICAL_NOT); ("signbit", OUnary SIGNBIT); ("isnan", OUnary ISNAN); ("isinf", OUnary ISINF); ("isfinite", OUnary ISFINITE);
   ("floor", ORound FLOOR); ("ceil", ORound CEIL); ("trunc", ORound TRUNC); ("rint", ORound ROUND); ("sqrt", OSqrt);
   ("sin", OTrig SIN); ("cos", OTrig COS); ("exp", OTrig EXP); ("log", OTrig LOG)].
Fixpoint assoc {A} (name : string) (l : list (string * A)) : option A :=
  match l with [] => None | (n, x) :: l' => if String.eqb n name then Some x else assoc name l' end.
Definition meaning (name : string) : operation := match assoc name operations with Some o => o | None => ONumpy end.
Definition format (t : cty) : option fmt := match t with FLOAT => Some FLT | DOUBLE => Some DBL | I _ => None end.
(** the kernel of an operation for an element type, None: there is none.  These are the functions whose values the other properties prove:
    C14, C15 (table), C44, C54, C55 (ftable), C16-C18, C46 (kGetComparisonOpFast), C42, C43, C53 (kGetUnaryOp), C52 (kGetRoundOp), C76 (sqrt),
    C58-C64 (trig_lane) *)
Definition kernel_for (o : operation) (t : cty) : option kern :=
  match o, t with
  | OBinary (Some f) _, I t => option_map KInt (table f t)
  | OBinary _ (Some u), (FLOAT | DOUBLE) => option_map (fun f => KFloat (ftable u f)) (format t)
  | OCompare c, _ => Some (KCmp (kGetComparisonOpFast c t))
  | OUnary u, _ => option_map KUn (kGetUnaryOp u t)
  | ORound r, _ => option_map KUn (kGetRoundOp r t)
  | OSqrt, FLOAT => option_map KUn (kGetSqrtOp FLT)
  | OSqrt, DOUBLE => option_map KUn (kGetSqrtOp DBL)
  | OTrig u, FLOAT => option_map KTrig (trig_lane u FLT)
  | OTrig u, DOUBLE => option_map KTrig (trig_lane u DBL)
  | _, _ => None
  end.
Definition kernel_of_ufunc (name : string) (d : Z) : option kern := match machine d with Some t => kernel_for (meaning name) t | None => None end.
(** NumPy's result dtype: bool (0) for the predicates, else the operands' own *)
Definition predicates : list string :=
  ["equal"; "not_equal"; "less"; "less_equal"; "greater"; "greater_equal"; "logical_and"; "logical_or"; "logical_not"; "isnan"; "isinf"; "isfinite"; "signbit"].
Definition result (name : string) (d : Z) : Z := if existsb (String.eqb name) predicates then 0 else d.
(** the dtypes for which NumPy has a loop with equal operand dtypes (the entries of ufunc.types, numpy/core/code_generators/generate_umath.py);
    names not listed: not said *)
Definition ints : list Z := [1; 2; 3; 4; 5; 6; 7; 8; 9; 10].
Definition floats : list Z := [11; 12].
Definition numpy_loops : list (string * list Z) :=
  let all := (0 :: ints ++ floats)%list in let numbers := (ints ++ floats)%list in
  [("add", all); ("subtract", numbers); ("multiply", all); ("minimum", all); ("maximum", all); ("true_divide", floats); ("floor_divide", numbers);
   ("power", numbers); ("remainder", numbers); ("logical_and", all); ("logical_or", all); ("bitwise_and", 0 :: ints); ("bitwise_or", 0 :: ints);
   ("bitwise_xor", 0 :: ints); ("left_shift", ints); ("right_shift", ints); ("equal", all); ("not_equal", all); ("less", all); ("less_equal", all);
   ("greater", all); ("greater_equal", all); ("abs", all); ("negative", numbers); ("positive", numbers); ("sign", numbers); ("square", numbers);
   ("reciprocal", numbers); ("invert", 0 :: ints); ("bitwise_not", 0 :: ints); ("logical_not", all); ("signbit", floats); ("fabs", floats);
   ("isnan", all); ("isinf", all); ("isfinite", all); ("floor", floats); ("ceil", floats); ("trunc", floats); ("rint", floats); ("sqrt", floats);
   ("sin", floats); ("cos", floats); ("tan", floats); ("arcsin", floats); ("arccos", floats); ("arctan", floats); ("sinh", floats); ("cosh", floats);
   ("tanh", floats); ("arcsinh", floats); ("arccosh", floats); ("arctanh", floats); ("cbrt", floats); ("exp", floats); ("exp2", floats);
   ("expm1", floats); ("log", floats); ("log2", floats); ("log10", floats); ("log1p", floats)].
Definition numpy_has (name : string) (d : Z) : Prop := match assoc name numpy_loops with Some ds => In d ds | None => False end.
(** the names initialize() hooks *)
Definition listed (name : string) : Prop := exists c op, In (name, op) (mapping c).
(** which names NumPy gives the same ufunc object: only invert and bitwise_not *)
Definition inverts : list string := ["invert"; "bitwise_not"].
Definition numpy_objects (obj : string -> Z) : Prop :=
  forall n n', listed n -> listed n' -> obj n = obj n' -> n = n' \/ (In n inverts /\ In n' inverts).

(** ---------- invariants of the hooking, for any table of output types ---------- *)
Definition dtypes_of (c : cat) : list Z := match c with Trig => trig_dtypes | _ => dtypes end.
Section Wired.
  Variable obj : string -> Z.
  Variable has_loop : Z -> Z -> Z -> bool.
  Variable want : cat -> Z -> Z -> option Z.
  Definition wired (h : hooks) : Prop :=
    forall u d o c op a, loops h u d o = Stub c op a -> a = dtype_to_atop d /\ In d (dtypes_of c) /\
      exists name oa, obj name = u /\ In (name, op) (mapping c) /\ want c op a = Some oa /\ o = out_dtype d oa.
  Lemma wired_dtypes c name op : In (name, op) (mapping c) -> forall ds h, incl ds (dtypes_of c) -> wired h -> wired (fst (hook_dtypes obj has_loop want c name op ds h)).
  Proof.
    intros Hin. induction ds as [|d ds IH]; intros h Id W; cbn [hook_dtypes]; [exact W|].
    assert (Id' : incl ds (dtypes_of c)) by (intros x Hx; apply Id; now right).
    unfold hook_dtype. cbv zeta. destruct (want c op (dtype_to_atop d)) as [oa|] eqn:Ew; [|now apply IH].
    destruct (has_loop (obj name) d (out_dtype d oa)); [|exact W]. apply IH; [exact Id'|].
    intros u d0 o c0 op0 a. cbn [replace loops]. destruct ((u =? obj name) && (d0 =? d) && (o =? out_dtype d oa)) eqn:E; [|apply W].
    apply andb_true_iff in E. destruct E as [E E3]. apply andb_true_iff in E. destruct E as [E1 E2]. apply Z.eqb_eq in E1, E2, E3. subst u d0 o.
    intros H. injection H as <- <- <-. split; [reflexivity|]. split; [apply Id; now left|]. exists name, oa. repeat split; auto.
  Qed.
  Lemma wired_names c ds : incl ds (dtypes_of c) -> forall m h, incl m (mapping c) -> wired h -> wired (fst (hook_names obj has_loop want c m ds h)).
  Proof.
    intros Id. induction m as [|[name op] m IH]; intros h Im W; cbn [hook_names]; [exact W|].
    pose proof (wired_dtypes c name op (Im _ (or_introl eq_refl)) ds h Id W) as W'. destruct (hook_dtypes obj has_loop want c name op ds h) as [h' []]; [|exact W'].
    apply IH; [intros x Hx; apply Im; now right|exact W'].
  Qed.

  (** cells once hooked stay hooked *)
  Definition stubbed (h : hooks) (u d o : Z) : Prop := exists c op a, loops h u d o = Stub c op a.
  Lemma stubbed_dtypes c name op : forall ds h u d o, stubbed h u d o -> stubbed (fst (hook_dtypes obj has_loop want c name op ds h)) u d o.
  Proof.
    induction ds as [|d ds IH]; intros h u d0 o S; cbn [hook_dtypes]; [exact S|]. unfold hook_dtype. cbv zeta.
    destruct (want c op (dtype_to_atop d)) as [oa|]; [|now apply IH]. destruct (has_loop (obj name) d (out_dtype d oa)); [|exact S]. apply IH.
    unfold stubbed. cbn [replace loops]. destruct (_ && _); [eauto|exact S].
  Qed.
  Lemma stubbed_names c ds : forall m h u d o, stubbed h u d o -> stubbed (fst (hook_names obj has_loop want c m ds h)) u d o.
  Proof.
    induction m as [|[name op] m IH]; intros h u d o S; cbn [hook_names]; [exact S|].
    pose proof (stubbed_dtypes c name op ds h u d o S) as S'. destruct (hook_dtypes obj has_loop want c name op ds h) as [h' []]; [|exact S']. now apply IH.
  Qed.
  (** NumPy has every loop asked for *)
  Definition available (c : cat) (m : list (string * Z)) (ds : list Z) : Prop :=
    forall name op d oa, In (name, op) m -> In d ds -> want c op (dtype_to_atop d) = Some oa -> has_loop (obj name) d (out_dtype d oa) = true.
  Lemma install_dtypes c name op : forall ds h, available c [(name, op)] ds ->
    snd (hook_dtypes obj has_loop want c name op ds h) = true /\
    forall d oa, In d ds -> want c op (dtype_to_atop d) = Some oa -> stubbed (fst (hook_dtypes obj has_loop want c name op ds h)) (obj name) d (out_dtype d oa).
  Proof.
    induction ds as [|d ds IH]; intros h A; cbn [hook_dtypes]; [split; [reflexivity|intros d oa []]|].
    assert (A' : available c [(name, op)] ds) by (intros n o' x oa Hn Hx; apply A; [exact Hn|now right]).
    destruct (hook_dtype obj has_loop want c name op d h) as [h'|] eqn:E; unfold hook_dtype in E; cbv zeta in E.
    - destruct (IH h' A') as [B C]. split; [exact B|]. intros d0 oa [<-|Hd] Hw; [|now apply C].
      apply stubbed_dtypes. rewrite Hw in E. destruct (has_loop (obj name) d (out_dtype d oa)); [|discriminate]. injection E as <-.
      exists c, op, (dtype_to_atop d). cbn [replace loops]. now rewrite !Z.eqb_refl.
    - exfalso. destruct (want c op (dtype_to_atop d)) as [oa|] eqn:Ew; [|discriminate].
      rewrite (A name op d oa (or_introl eq_refl) (or_introl eq_refl) Ew) in E. discriminate.
  Qed.
  Lemma install_names c ds : forall m h, available c m ds ->
    snd (hook_names obj has_loop want c m ds h) = true /\
    forall name op d oa, In (name, op) m -> In d ds -> want c op (dtype_to_atop d) = Some oa ->
      stubbed (fst (hook_names obj has_loop want c m ds h)) (obj name) d (out_dtype d oa).
  Proof.
    induction m as [|[name op] m IH]; intros h A; cbn [hook_names]; [split; [reflexivity|intros ? ? ? ? []]|].
    assert (A1 : available c [(name, op)] ds) by (intros n o' x oa [Hn|[]] Hx; injection Hn as <- <-; apply A; [now left|exact Hx]).
    assert (A' : available c m ds) by (intros n o' x oa Hn Hx; apply A; [now right|exact Hx]).
    destruct (install_dtypes c name op ds h A1) as [B C]. destruct (hook_dtypes obj has_loop want c name op ds h) as [h' ok]. cbn [fst snd] in B, C. subst ok.
    destruct (IH h' A') as [D E]. split; [exact D|]. intros n o' d oa [Hn|Hn] Hd Hw; [|now apply (E n o')].
    injection Hn as <- <-. apply stubbed_names. now apply C.
  Qed.
End Wired.

(** ---------- initialize with pnumpy's own tables ---------- *)
Lemma all_ufuncs_ok : forall c m ds, In (c, m, ds) all_ufuncs -> m = mapping c /\ ds = dtypes_of c.
Proof. intros c m ds H. cbn in H. destruct H as [H|[H|[H|[H|[]]]]]; injection H as <- <- <-; split; reflexivity. Qed.
Lemma all_ufuncs_all : forall c, In (c, mapping c, dtypes_of c) all_ufuncs.
Proof. intros []; cbn; auto. Qed.
Lemma hook_all_same obj has_loop : forall l h, hook_all obj has_loop wanted l h = fst (hook_all_ok obj has_loop l h).
Proof.
  induction l as [|[[c m] ds] l IH]; intros h; cbn [hook_all hook_all_ok]; [reflexivity|].
  destruct (hook_names obj has_loop wanted c m ds h) as [h' []]; [apply IH|reflexivity].
Qed.
Lemma init_same obj has_loop : initialize obj has_loop wanted = fst (hook_all_ok obj has_loop all_ufuncs fresh).
Proof. apply hook_all_same. Qed.
Lemma wired_all obj has_loop : forall l h, (forall c m ds, In (c, m, ds) l -> m = mapping c /\ ds = dtypes_of c) -> wired obj wanted h ->
  wired obj wanted (fst (hook_all_ok obj has_loop l h)).
Proof.
  induction l as [|[[c m] ds] l IH]; intros h H W; cbn [hook_all_ok]; [exact W|].
  assert (W' : wired obj wanted (fst (hook_names obj has_loop wanted c m ds h))).
  { destruct (H c m ds (or_introl eq_refl)) as [-> ->]. apply wired_names; [apply incl_refl|apply incl_refl|exact W]. }
  destruct (hook_names obj has_loop wanted c m ds h) as [h' []]; [|exact W']. apply IH; [|exact W']. intros c0 m0 ds0 Hin. apply H. now right.
Qed.
Lemma init_wired obj has_loop : wired obj wanted (fst (hook_all_ok obj has_loop all_ufuncs fresh)).
Proof. apply wired_all; [apply all_ufuncs_ok|]. intros u d o c op a H. discriminate. Qed.
Lemma stubbed_all obj has_loop : forall l h u d o, stubbed h u d o -> stubbed (fst (hook_all_ok obj has_loop l h)) u d o.
Proof.
  induction l as [|[[c m] ds] l IH]; intros h u d o S; cbn [hook_all_ok]; [exact S|].
  pose proof (stubbed_names obj has_loop wanted c ds m h u d o S) as S'. destruct (hook_names obj has_loop wanted c m ds h) as [h' []]; [|exact S']. now apply IH.
Qed.
Lemma install_all obj has_loop : forall l h, (forall c m ds, In (c, m, ds) l -> available obj has_loop wanted c m ds) ->
  snd (hook_all_ok obj has_loop l h) = true /\
  forall c m ds name op d oa, In (c, m, ds) l -> In (name, op) m -> In d ds -> wanted c op (dtype_to_atop d) = Some oa ->
    stubbed (fst (hook_all_ok obj has_loop l h)) (obj name) d (out_dtype d oa).
Proof.
  induction l as [|[[c m] ds] l IH]; intros h A; cbn [hook_all_ok]; [split; [reflexivity|intros ? ? ? ? ? ? ? []]|].
  destruct (install_names obj has_loop wanted c ds m h (A c m ds (or_introl eq_refl))) as [B C].
  destruct (hook_names obj has_loop wanted c m ds h) as [h' ok]. cbn [fst snd] in B, C. subst ok.
  destruct (IH h') as [D E]; [intros c0 m0 ds0 Hin; apply A; now right|]. split; [exact D|].
  intros c0 m0 ds0 name op d oa [Hin|Hin] Hn Hd Hw; [|now apply (E c0 m0 ds0 name op)]. injection Hin as <- <- <-. apply stubbed_all. now apply (C name op).
Qed.

(** the tables, entry by entry: whatever a listed name's operation code asks for is NumPy's result type, and the kernel is that of the name *)
Definition entry_right (c : cat) (name : string) (op d : Z) : Prop :=
  match wanted c op (dtype_to_atop d) with
  | Some oa => out_dtype d oa = result name d /\ kernel_of c op (dtype_to_atop d) = kernel_of_ufunc name d
  | None => kernel_of_ufunc name d = None \/ (name = "rint" /\ op = 12)
  end.
Lemma entries_right : forall c, Forall (fun e => Forall (entry_right c (fst e) (snd e)) (dtypes_of c)) (mapping c).
Proof.
  intros []; cbn [mapping dtypes_of]; unfold gBinaryMapping, gCompareMapping, gUnaryMapping, gTrigMapping, dtypes, trig_dtypes;
  repeat (constructor; [repeat (constructor; [first [split; reflexivity|left; reflexivity|right; split; reflexivity]|]); constructor|]); constructor.
Qed.
Lemma entry_at c name op d : In (name, op) (mapping c) -> In d (dtypes_of c) -> entry_right c name op d.
Proof.
  intros H Hd. pose proof (proj1 (Forall_forall _ _) (entries_right c) (name, op) H) as F. cbn [fst snd] in F.
  exact (proj1 (Forall_forall _ _) F d Hd).
Qed.
Lemma inverts_same : forall n n' d, In n inverts -> In n' inverts -> kernel_of_ufunc n d = kernel_of_ufunc n' d /\ result n d = result n' d.
Proof. intros n n' d [<-|[<-|[]]] [<-|[<-|[]]]; split; reflexivity. Qed.
(** the hooking of a loop, whichever of its names it was hooked under *)
Lemma hooked_right obj has_loop : numpy_objects obj -> forall u d o c op a,
  loops (initialize obj has_loop wanted) u d o = Stub c op a -> forall name, listed name -> obj name = u ->
  In d dtypes /\ o = result name d /\ kernel_of c op a = kernel_of_ufunc name d.
Proof.
  intros N u d o c op a H name L U. rewrite init_same in H. destruct (init_wired obj has_loop u d o c op a H) as (Ha & Hd & n & oa & Hn & Hin & Hw & Ho).
  assert (R : entry_right c n op d) by (apply entry_at; assumption). unfold entry_right in R. subst a. rewrite Hw in R. destruct R as [R1 R2].
  assert (S : kernel_of_ufunc name d = kernel_of_ufunc n d /\ result name d = result n d).
  { destruct (N name n) as [->|[A B]]; [exact L|exists c, op; exact Hin|congruence|split; reflexivity|]. now apply inverts_same. }
  destruct S as [S1 S2]. split; [|split].
  - destruct c; try exact Hd. cbn in Hd. unfold dtypes. cbn. lia.
  - rewrite S2, Ho. exact R1.
  - rewrite S1. exact R2.
Qed.

(** C83.  Whichever loops this NumPy has (also when initialize stops half way with an error), and with NumPy's own aliasing of names (the
    listed names are different ufuncs, except invert and bitwise_not): a loop of a ufunc that has been hooked takes operands of one of
    the dtypes 0..12, gives NumPy's result dtype, and what its stub runs is exactly the kernel of this ufunc's own operation for its
    operands' own element type, or nothing (NumPy's loop, C56) when that operation has no kernel for that type. *)
Theorem C83_own_kernel : forall obj has_loop u d o c op a, numpy_objects obj ->
  loops (initialize obj has_loop wanted) u d o = Stub c op a ->
  forall name, listed name -> obj name = u -> In d dtypes /\ o = result name d /\ kernel_of c op a = kernel_of_ufunc name d.
Proof. intros obj has_loop u d o c op a N H. now apply hooked_right with (has_loop := has_loop). Qed.
Print Assumptions C83_own_kernel.

(** the loops initialize() asks for are loops NumPy has *)
Lemma assoc_in {A} (name : string) (x : A) : forall l, assoc name l = Some x -> In (name, x) l.
Proof. induction l as [|[n y] l IH]; cbn [assoc]; [discriminate|]. destruct (String.eqb_spec n name) as [->|_]; [intros H; injection H as ->; now left|intros H; right; now apply IH]. Qed.
Lemma asks_numpy_all : forallb (fun c => forallb (fun e => match assoc (fst e) numpy_loops with
    | Some ds => forallb (fun d => match wanted c (snd e) (dtype_to_atop d) with Some _ => existsb (Z.eqb d) ds | None => true end) (dtypes_of c)
    | None => false end) (mapping c)) [Binary; Compare; Unary; Trig] = true.
Proof. vm_compute. reflexivity. Qed.
Lemma asks_numpy c name op d oa : In (name, op) (mapping c) -> In d (dtypes_of c) -> wanted c op (dtype_to_atop d) = Some oa -> numpy_has name d.
Proof.
  intros H Hd Hw. assert (Hc : In c [Binary; Compare; Unary; Trig]) by (destruct c; cbn; auto).
  pose proof (proj1 (forallb_forall _ _) (proj1 (forallb_forall _ _) asks_numpy_all c Hc) (name, op) H) as Q. cbv beta in Q. cbn [fst snd] in Q.
  unfold numpy_has. destruct (assoc name numpy_loops) as [ds|]; [|discriminate].
  pose proof (proj1 (forallb_forall _ _) Q d Hd) as X. cbv beta in X. rewrite Hw in X. apply existsb_exists in X. destruct X as (y & Hy & E). apply Z.eqb_eq in E. now subst y.
Qed.
Definition numpy_loops_present (obj : string -> Z) (has_loop : Z -> Z -> Z -> bool) : Prop :=
  forall name d, numpy_has name d -> has_loop (obj name) d (result name d) = true.
Lemma availability obj has_loop : numpy_loops_present obj has_loop ->
  forall c m ds, In (c, m, ds) all_ufuncs -> available obj has_loop wanted c m ds.
Proof.
  intros A c m ds Hin name op d oa Hn Hd Hw. destruct (all_ufuncs_ok c m ds Hin) as [-> ->].
  pose proof (entry_at c name op d Hn Hd) as R. unfold entry_right in R. rewrite Hw in R. destruct R as [-> _]. apply A. exact (asks_numpy c name op d oa Hn Hd Hw).
Qed.
(** each operation with a kernel has an entry that hooks it *)
Definition cats : list cat := [Binary; Compare; Unary; Trig].
Definition entry_hooks (name : string) (d : Z) (c : cat) (e : string * Z) : bool :=
  String.eqb (fst e) name && match wanted c (snd e) (dtype_to_atop d) with Some _ => true | None => false end.
Definition hooks_it (name : string) (d : Z) : bool :=
  existsb (fun c => existsb (Z.eqb d) (dtypes_of c) && existsb (entry_hooks name d c) (mapping c)) cats.
Lemma hooks_it_all : forallb (fun name => forallb (fun d => match kernel_of_ufunc name d with Some _ => hooks_it name d | None => true end) dtypes) (map fst operations) = true.
Proof. vm_compute. reflexivity. Qed.
Lemma machine_dtypes d t : machine d = Some t -> In d dtypes.
Proof.
  unfold machine, dtypes. intros H. destruct d as [|p|p]; [cbn; auto| |discriminate].
  do 4 (destruct p; try discriminate; try (cbn; now auto 20)).
Qed.
Lemma operation_name name : meaning name <> ONumpy -> In name (map fst operations).
Proof.
  unfold meaning. generalize operations. induction l as [|[n x] l IH]; cbn [assoc map fst In]; [congruence|].
  destruct (String.eqb_spec n name) as [->|_]; [now left|]. intros H. right. now apply IH.
Qed.
Lemma has_entry name d k : kernel_of_ufunc name d = Some k ->
  exists c op oa, In (name, op) (mapping c) /\ In d (dtypes_of c) /\ wanted c op (dtype_to_atop d) = Some oa.
Proof.
  intros H. assert (Hd : In d dtypes). { unfold kernel_of_ufunc in H. destruct (machine d) as [t|] eqn:E; [|discriminate]. now apply machine_dtypes in E. }
  assert (Hn : In name (map fst operations)). { apply operation_name. intros E. unfold kernel_of_ufunc in H. rewrite E in H. destruct (machine d) as [t|]; discriminate. }
  pose proof (proj1 (forallb_forall _ _) (proj1 (forallb_forall _ _) hooks_it_all name Hn) d Hd) as X. cbv beta in X. rewrite H in X.
  apply existsb_exists in X. destruct X as (c & _ & X). apply andb_true_iff in X. destruct X as [X1 X2].
  apply existsb_exists in X1. destruct X1 as (d' & Hd' & E). apply Z.eqb_eq in E. subst d'.
  apply existsb_exists in X2. destruct X2 as ([n op] & Hin & E). unfold entry_hooks in E. cbn [fst snd] in E. apply andb_true_iff in E. destruct E as [E1 E2].
  apply String.eqb_eq in E1. subst n. destruct (wanted c op (dtype_to_atop d)) as [oa|] eqn:Ew; [|discriminate]. exists c, op, oa. auto.
Qed.

(** C83.  With NumPy's aliasing of names and NumPy's loops, initialize() asks for no loop NumPy lacks, and every operation that has a kernel is
    accelerated: its loop is a stub running that kernel. *)
Theorem C83_accelerated : forall obj has_loop name d k, numpy_objects obj -> numpy_loops_present obj has_loop ->
  kernel_of_ufunc name d = Some k ->
  exists c op a, loops (initialize obj has_loop wanted) (obj name) d (result name d) = Stub c op a /\ kernel_of c op a = Some k.
Proof.
  intros obj has_loop name d k N A K. destruct (has_entry name d k K) as (c & op & oa & Hin & Hd & Hw).
  destruct (install_all obj has_loop all_ufuncs fresh (availability obj has_loop A)) as [_ I].
  pose proof (I c (mapping c) (dtypes_of c) name op d oa (all_ufuncs_all c) Hin Hd Hw) as (c' & op' & a' & Hs).
  pose proof (entry_at c name op d Hin Hd) as R. unfold entry_right in R. rewrite Hw in R. destruct R as [R1 _]. rewrite R1 in Hs.
  rewrite <- init_same in Hs. exists c', op', a'. split; [exact Hs|].
  destruct (hooked_right obj has_loop N _ _ _ _ _ _ Hs name (ex_intro _ c (ex_intro _ op Hin)) eq_refl) as (_ & _ & E). now rewrite E.
Qed.
Print Assumptions C83_accelerated.

(** the reduction stored beside a binary kernel is that of the same operation and type *)
Definition reduction_for (o : operation) (t : cty) : option rkern :=
  match o, t with
  | OBinary (Some f) _, I t => option_map (fun p => RInt (fst p) (snd p)) (rtable f t)
  | OBinary _ (Some ((FADD | FMUL) as u)), FLOAT => Some (RUp u)          (* C66: double accumulators *)
  | OBinary _ (Some u), DOUBLE => option_map (fun p => RDouble (fst p) (snd p)) (dtable u)
  | _, _ => None
  end.
Definition reduction_of_ufunc (name : string) (d : Z) : option rkern := match machine d with Some t => reduction_for (meaning name) t | None => None end.
Lemma reductions_right : Forall (fun e => Forall (fun d => reduce_slot (snd e) (dtype_to_atop d) = reduction_of_ufunc (fst e) d) dtypes) gBinaryMapping.
Proof.
  unfold gBinaryMapping, dtypes. repeat (constructor; [repeat (constructor; [reflexivity|]); constructor|]); constructor.
Qed.
Theorem C83_own_reduction : forall obj has_loop u d o op a, numpy_objects obj ->
  loops (initialize obj has_loop wanted) u d o = Stub Binary op a ->
  forall name, listed name -> obj name = u -> reduce_slot op a = reduction_of_ufunc name d.
Proof.
  intros obj has_loop u d o op a N H name L U. rewrite init_same in H. destruct (init_wired obj has_loop u d o Binary op a H) as (Ha & Hd & n & oa & Hn & Hin & Hw & Ho).
  pose proof (proj1 (Forall_forall _ _) (proj1 (Forall_forall _ _) reductions_right (n, op) Hin) d Hd) as R. cbn [fst snd] in R. subst a.
  destruct (N name n) as [->|[A B]]; [exact L|exists Binary, op; exact Hin|congruence|exact R|].
  exfalso. destruct B as [<-|[<-|[]]]; cbn in Hin; repeat (destruct Hin as [Hin|Hin]; [discriminate|]); exact Hin.
Qed.
Print Assumptions C83_own_reduction.

(** the premises are NumPy's: names numbered in their order here, bitwise_not the object of invert *)
Fixpoint position (name : string) (l : list string) : Z := match l with [] => 0 | n :: l' => if String.eqb n name then 0 else 1 + position name l' end.
Definition np_names (name : string) : Z := position (if String.eqb name "bitwise_not" then "invert" else name) (map fst numpy_loops).
Definition np_has (u d o : Z) : bool :=
  existsb (fun e => (np_names (fst e) =? u) && existsb (Z.eqb d) (snd e) && (o =? result (fst e) d)) numpy_loops.
Example C83_nonvacuous : numpy_objects np_names /\ numpy_loops_present np_names np_has /\
  loops (initialize np_names np_has wanted) (np_names "true_divide") 12 12 = Stub Binary 13 13 /\
  kernel_of Binary 13 13 = Some (KFloat (FPlain (f_div DBL))) /\
  loops (initialize np_names np_has wanted) (np_names "true_divide") 7 12 = Np (np_names "true_divide") 7 12 /\
  loops (initialize np_names np_has wanted) (np_names "less") 5 0 = Stub Compare 2 5 /\
  kernel_of_ufunc "less" 5 = Some (KCmp (kGetComparisonOpFast CMP_LT (I INT32))).
Proof.
  split; [|split].
  - assert (Lst : forall m, listed m -> existsb (String.eqb m) (map fst numpy_loops) = true).
    { assert (T : forallb (fun c => forallb (fun e => existsb (String.eqb (fst e)) (map fst numpy_loops)) (mapping c)) cats = true) by (vm_compute; reflexivity).
      intros m (c & op & H). assert (Hc : In c cats) by (destruct c; cbn; auto).
      exact (proj1 (forallb_forall _ _) (proj1 (forallb_forall _ _) T c Hc) (m, op) H). }
    intros n n' L L' E. pose proof (Lst n L) as B. pose proof (Lst n' L') as B'.
    apply existsb_exists in B, B'. destruct B as (x & Hx & Ex), B' as (x' & Hx' & Ex'). apply String.eqb_eq in Ex, Ex'. subst x x'.
    assert (K : forallb (fun n => forallb (fun n' => implb (np_names n =? np_names n') (String.eqb n n' || (existsb (String.eqb n) inverts && existsb (String.eqb n') inverts)))
      (map fst numpy_loops)) (map fst numpy_loops) = true) by (vm_compute; reflexivity).
    pose proof (proj1 (forallb_forall _ _) (proj1 (forallb_forall _ _) K n Hx) n' Hx') as Q. cbv beta in Q. rewrite (proj2 (Z.eqb_eq _ _) E) in Q. cbn [implb] in Q.
    apply orb_true_iff in Q. destruct Q as [Q|Q]; [left; now apply String.eqb_eq|right]. apply andb_true_iff in Q. destruct Q as [Q1 Q2].
    split; [apply existsb_exists in Q1; destruct Q1 as (y & Hy & Ey)|apply existsb_exists in Q2; destruct Q2 as (y & Hy & Ey)]; apply String.eqb_eq in Ey; now subst y.
  - intros name d H. unfold numpy_has in H. destruct (assoc name numpy_loops) as [ds|] eqn:E; [|destruct H].
    apply existsb_exists. exists (name, ds). split; [now apply assoc_in|]. cbn [fst snd]. rewrite !Z.eqb_refl. cbn [andb]. rewrite andb_true_r.
    apply existsb_exists. exists d. split; [exact H|apply Z.eqb_refl].
  - split; [vm_compute; reflexivity|]. split; [reflexivity|]. split; [vm_compute; reflexivity|]. split; [vm_compute; reflexivity|reflexivity].
Qed.

(** ---------- C84: calling initialize ---------- *)
(** any number of calls, with or without AVX2 (the machine does not change) *)
Fixpoint calls (obj : string -> Z) (has_loop : Z -> Z -> Z -> bool) (avx2 : bool) (n : nat) (p : process) : process * list answer :=
  match n with
  | O => (p, [])
  | S k => let '(p1, r) := newinit obj has_loop avx2 p in let '(p2, rs) := calls obj has_loop avx2 k p1 in (p2, r :: rs)
  end.
Lemma later_calls obj has_loop : forall n h, calls obj has_loop true n (mkProc true h) = (mkProc true h, repeat ReturnsNone n).
Proof.
  induction n as [|n IH]; intros h; [reflexivity|]. cbn [calls]. unfold newinit at 1. cbn [initialized negb andb]. now rewrite IH.
Qed.
(** C84.  On a machine with AVX2 and with NumPy's loops, the first initialize() of a process succeeds and hooks as C56 and C83 say; every later
    call succeeds and changes nothing, so no loop is ever hooked twice (C56: each slot keeps the loop NumPy had). *)
Theorem C84_idempotent : forall obj has_loop n, numpy_loops_present obj has_loop ->
  calls obj has_loop true (S n) started = (mkProc true (initialize obj has_loop wanted), repeat ReturnsNone (S n)).
Proof.
  intros obj has_loop n A. cbn [calls]. unfold newinit at 1. cbn [initialized started negb andb hooked].
  pose proof (proj1 (install_all obj has_loop all_ufuncs fresh (availability obj has_loop A))) as B. rewrite init_same.
  destruct (hook_all_ok obj has_loop all_ufuncs fresh) as [h ok]. cbn [fst snd] in *. subst ok. now rewrite later_calls.
Qed.
Print Assumptions C84_idempotent.
(** C84.  Without AVX2 every call raises ImportError and hooks nothing: NumPy is as it was. *)
Theorem C84_no_avx2 : forall obj has_loop n, calls obj has_loop false n started = (started, repeat ImportErrorRaised n).
Proof. intros obj has_loop. induction n as [|n IH]; [reflexivity|]. cbn [calls]. unfold newinit at 1. cbn [initialized started negb andb]. rewrite IH. reflexivity. Qed.
Print Assumptions C84_no_avx2.
(** C84 (refuted part).  A call that raises TypeError half way (a loop is missing in this NumPy) leaves the process marked initialized with only the
    ufuncs before it hooked: the next call returns None as if it had succeeded, and hooks nothing more.  Whatever loops exist. *)
Theorem C84_failure_is_kept : forall obj has_loop n p1, newinit obj has_loop true started = (p1, TypeErrorRaised) ->
  calls obj has_loop true n p1 = (p1, repeat ReturnsNone n).
Proof.
  intros obj has_loop n p1 H. unfold newinit in H. cbn [initialized started negb andb] in H.
  destruct (hook_all_ok obj has_loop all_ufuncs (hooked started)) as [h ok]. injection H as <- _. apply later_calls.
Qed.
(** e.g. a NumPy whose isnan has no integer loops (before 1.17): the trig functions and those after isnan stay NumPy's, silently *)
Definition np_has_old (u d o : Z) : bool := np_has u d o && negb ((u =? np_names "isnan") && (d <? 11)).
Theorem C84_refuted : exists p1, newinit np_names np_has_old true started = (p1, TypeErrorRaised) /\
  newinit np_names np_has_old true p1 = (p1, ReturnsNone) /\
  kernel_of_ufunc "sin" 12 <> None /\ loops (hooked p1) (np_names "sin") 12 12 = Np (np_names "sin") 12 12 /\
  loops (hooked p1) (np_names "add") 12 12 = Stub Binary 1 13.
Proof.
  destruct (newinit np_names np_has_old true started) as [p1 r] eqn:E. exists p1.
  assert (R : r = TypeErrorRaised). { transitivity (snd (newinit np_names np_has_old true started)); [now rewrite E|vm_compute; reflexivity]. }
  subst r. split; [reflexivity|].
  assert (P : p1 = fst (newinit np_names np_has_old true started)) by now rewrite E.
  split. { pose proof (C84_failure_is_kept np_names np_has_old 1 p1 E) as F. cbn [calls repeat] in F. destruct (newinit np_names np_has_old true p1) as [p2 r2]. injection F as -> ->. reflexivity. }
  split; [discriminate|]. subst p1. split; vm_compute; reflexivity.
Qed.
Print Assumptions C84_refuted.
Example C84_nonvacuous : let '(p, rs) := calls np_names np_has true 3 started in
  rs = [ReturnsNone; ReturnsNone; ReturnsNone] /\ loops (hooked p) (np_names "sin") 12 12 = Stub Trig 1 13 /\
  fall_back 2 (hooked p) (Stub Trig 1 13) = Some (np_names "sin", 12, 12).
Proof. vm_compute. repeat split. Qed.
