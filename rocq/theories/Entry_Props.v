(** Entry_Props.v - C85: NumPy's ufuncs, by name and dtype, after pnumpy.initialize(). *)
From Coq Require Import String.
From Verif Require Import Base Threads_Model Threads_Proofs Jobs_Model Sort_Model Kernel_Model Kernel_Proofs Kernel_Props
  Float_Model Compare_Model Compare_Proofs Compare_Props Unary_Model Unary_Proofs Unary_Props UnaryVal_Props Round_Model Round_Props Arith_Model Arith_Props
  Trig_Model Trig_Props Hooks_Model Hooks_Props Ufunc_Model Ufunc_Proofs Ufunc_Kernel_Proofs Ufunc_Props UfuncCmp_Model UfuncCmp_Props UfuncUn_Model UfuncUn_Proofs UfuncUn_Props
  Sqrt_Model Sqrt_Props RedBytes_Model Dispatch_Model Dispatch_Props Entry_Model.
Local Open Scope string_scope.
Local Open Scope Z_scope.

(** ---------- the category of a name's stub ---------- *)
Definition category (o : operation) : option cat :=
  match o with OBinary _ _ => Some Binary | OCompare _ => Some Compare | OUnary _ | ORound _ | OSqrt => Some Unary | OTrig _ => Some Trig | ONumpy => None end.
Lemma categories : forallb (fun c => forallb (fun e => match category (meaning (fst e)) with Some c' => cat_eqb c' c | None => true end) (mapping c)) [Binary; Compare; Unary; Trig] = true.
Proof. vm_compute. reflexivity. Qed.
Lemma category_of c name op : In (name, op) (mapping c) -> category (meaning name) = Some c \/ category (meaning name) = None.
Proof.
  intros H. assert (Hc : In c [Binary; Compare; Unary; Trig]) by (destruct c; cbn; auto).
  pose proof (proj1 (forallb_forall _ _) (proj1 (forallb_forall _ _) categories c Hc) (name, op) H) as Q. cbv beta in Q. cbn [fst] in Q.
  destruct (category (meaning name)) as [c'|]; [left; f_equal; now apply cat_eqb_eq|now right].
Qed.
Lemma inverts_meaning n n' : In n inverts -> In n' inverts -> meaning n = meaning n'.
Proof. intros [<-|[<-|[]]] [<-|[<-|[]]]; reflexivity. Qed.
Lemma listed_operation name : meaning name <> ONumpy -> listed name.
Proof.
  intros H. apply operation_name in H.
  assert (T : forallb (fun n => existsb (fun c => existsb (fun e => String.eqb (fst e) n) (mapping c)) cats) (map fst operations) = true) by (vm_compute; reflexivity).
  pose proof (proj1 (forallb_forall _ _) T name H) as Q. cbv beta in Q. apply existsb_exists in Q. destruct Q as (c & _ & Q).
  apply existsb_exists in Q. destruct Q as ([n op] & Hin & E). apply String.eqb_eq in E. cbn [fst] in E. subst n. now exists c, op.
Qed.
(** a hooked loop of a ufunc with a known operation: the stub is of its category and its slot holds its kernel *)
Lemma at_name obj has_loop name d o : numpy_objects obj -> meaning name <> ONumpy ->
  match loops (initialize obj has_loop wanted) (obj name) d o with
  | Np _ _ _ => True
  | Stub c op a => category (meaning name) = Some c /\ a = dtype_to_atop d /\ kernel_of c op a = kernel_of_ufunc name d
  end.
Proof.
  intros N M. pose proof (listed_operation name M) as L. destruct (loops (initialize obj has_loop wanted) (obj name) d o) as [|c op a] eqn:E; [exact Logic.I|].
  destruct (hooked_right obj has_loop N _ _ _ _ _ _ E name L eq_refl) as (_ & _ & K).
  rewrite init_same in E. destruct (init_wired obj has_loop _ _ _ _ _ _ E) as (Ha & _ & n & oa & Hn & Hin & _ & _).
  split; [|split; [exact Ha|exact K]].
  assert (S : meaning name = meaning n).
  { destruct (N name n) as [->|[A B]]; [exact L|now exists c, op|congruence|reflexivity|]. now apply inverts_meaning. }
  destruct (category_of c n op Hin) as [C|C]; [rewrite S; exact C|]. exfalso. rewrite <- S in C. destruct (meaning name); cbn [category] in C; congruence.
Qed.

(** ---------- binary ufuncs ---------- *)
(** [P] holds of what pnumpy's kernel computes and of what NumPy's loop computes, for elements that satisfy [V] *)
Lemma binary_either found nop sz op a1 a2 out n s1 s2 so m enabled (P : Z -> Z -> Z -> Prop) (V : Z -> Prop) : good_sz sz -> closed_op sz nop ->
  (forall k, found = Some k -> sound k sz op /\ forall x y, pat sz x -> pat sz y -> V x -> V y -> P x y (op x y)) ->
  (forall x y, pat sz x -> pat sz y -> V x -> V y -> P x y (nop x y)) ->
  0 <= n -> bytes_ok m -> out mod sz = 0 /\ so mod sz = 0 -> separate_call sz a1 s1 a2 s2 out so n ->
  (forall i, 0 <= i < n -> V (ld sz m (a1 + i * s1)) /\ V (ld sz m (a2 + i * s2))) ->
  let k := chosen enabled found nop a1 a2 out in
  (forall h, ~ call_faults k sz a1 a2 out n s1 s2 so h m) /\
  (forall h m', call_ends k sz a1 a2 out n s1 s2 so h m m' -> answered2 P sz a1 s1 a2 s2 out so n m m') /\
  (forall T zz sched, WORK_ITEM_BIG <= n -> 0 <= T -> exists more m', call_ends k sz a1 a2 out n s1 s2 so (Threaded T zz (sched ++ more)) m m').
Proof.
  intros Hg Hc Hf HP Hn Hm Hal Hsc HV k.
  assert (X : exists op', (forall x y, pat sz x -> pat sz y -> V x -> V y -> P x y (op' x y)) /\ sound k sz op').
  { unfold k. destruct found as [k0|].
    - destruct (Hf k0 eq_refl) as [F1 F2]. destruct (chosen_either enabled k0 nop sz op a1 a2 out Hg Hc F1) as (op' & [-> | ->] & S); eauto.
    - exists nop. split; [exact HP|]. now apply numpy_sound. }
  destruct X as (op' & HP' & Hk). pose proof (binary_call k _ _ Hg Hk a1 a2 out n s1 s2 so m Hn Hm Hal Hsc) as B. split; [intros h; apply B|]. split.
  - intros h m' H. destruct (proj2 (B h) m' H) as [E1 E2]. split; [|exact E2].
    intros i Hi. rewrite E1 by exact Hi. pose proof (good_pos _ Hg). apply HP'; try (apply ld_pat; try lia; exact Hm); now apply HV.
  - intros T zz sched. now apply (binary_ends k _ _ Hg Hk).
Qed.
Lemma found_int obj has_loop name d f x t o : numpy_objects obj -> meaning name = OBinary (Some f) x -> machine d = Some (I t) ->
  forall k, found_binary (loops (initialize obj has_loop wanted) (obj name) d o) = Some k -> exists e, table f t = Some e /\ k = of_entry e.
Proof.
  intros N M D k F. pose proof (at_name obj has_loop name d o N ltac:(rewrite M; discriminate)) as A.
  destruct (loops (initialize obj has_loop wanted) (obj name) d o) as [|c op a]; [discriminate|]. destruct A as (A1 & _ & A2).
  rewrite M in A1. injection A1 as <-. cbn [found_binary] in F. rewrite A2 in F. unfold kernel_of_ufunc in F. rewrite D, M in F. cbn [kernel_for] in F.
  destruct x; (destruct (table f t) as [e|]; cbn [option_map] in F; [|discriminate]; injection F as <-; now exists e).
Qed.

(** C85.  np.add, subtract, multiply, minimum, maximum and bitwise_and/or/xor of two arrays of the same integer or boolean dtype, logical_and/or of boolean ones ([result name d = d]),
    after initialize(): whatever loops this NumPy has and whether or not this one was hooked, pnumpy enabled or not, any arrays that do not
    overlap at other positions, alone or on any number of workers in any interleaving: no fault; every element of the result is what NumPy documents
    for the ORIGINAL elements; no other byte changes; a threaded call can always still be brought to return.  [nop]: NumPy's own loop,
    right by assumption. *)
Theorem C85_integers : forall obj has_loop name d f x t enabled nop a1 a2 out n s1 s2 so m,
  numpy_objects obj -> meaning name = OBinary (Some f) x -> machine d = Some (I t) -> result name d = d ->
  closed_op (isize t) nop -> (forall x y, valid t x -> valid t y -> answers f t x y (nop x y)) ->
  0 <= n -> bytes_ok m -> out mod isize t = 0 /\ so mod isize t = 0 -> separate_call (isize t) a1 s1 a2 s2 out so n ->
  (forall i, 0 <= i < n -> valid t (ld (isize t) m (a1 + i * s1)) /\ valid t (ld (isize t) m (a2 + i * s2))) ->
  let l := loops (initialize obj has_loop wanted) (obj name) d (result name d) in
  let k := chosen enabled (found_binary l) nop a1 a2 out in
  (forall h, ~ call_faults k (isize t) a1 a2 out n s1 s2 so h m) /\
  (forall h m', call_ends k (isize t) a1 a2 out n s1 s2 so h m m' -> answered2 (answers f t) (isize t) a1 s1 a2 s2 out so n m m') /\
  (forall T zz sched, WORK_ITEM_BIG <= n -> 0 <= T -> exists more m', call_ends k (isize t) a1 a2 out n s1 s2 so (Threaded T zz (sched ++ more)) m m').
Proof.
  intros obj has_loop name d f x t enabled nop a1 a2 out n s1 s2 so m N M D _ Hc Hnop Hn Hm Hal Hsc Hv l.
  apply binary_either with (op := match table f t with Some e => scalar_of e | None => nop end) (V := valid t); try assumption; [apply isize_good| |intros; now apply Hnop].
  intros k F. destruct (found_int obj has_loop name d f x t _ N M D k F) as (e & T & ->). rewrite T. split; [now apply (entry_sound f)|].
  intros u v _ _ Hu Hw. now apply table_is_numpy.
Qed.
Print Assumptions C85_integers.

Lemma found_flt obj has_loop name d i u f t o : numpy_objects obj -> meaning name = OBinary i (Some u) -> machine d = Some t -> format t = Some f ->
  forall k, found_binary (loops (initialize obj has_loop wanted) (obj name) d o) = Some k -> k = of_fentry (ftable u f).
Proof.
  intros N M D Ft k F. pose proof (at_name obj has_loop name d o N ltac:(rewrite M; discriminate)) as A.
  destruct (loops (initialize obj has_loop wanted) (obj name) d o) as [|c op a]; [discriminate|]. destruct A as (A1 & _ & A2).
  rewrite M in A1. injection A1 as <-. cbn [found_binary] in F. rewrite A2 in F. unfold kernel_of_ufunc in F. rewrite D, M in F.
  destruct t; cbn [format] in Ft; try discriminate; injection Ft as <-; destruct i; cbn [kernel_for format option_map] in F; now injection F as <-.
Qed.
Lemma format_known t f : format t = Some f -> known f /\ csize t = fsize f.
Proof. destruct t; cbn [format]; intros H; try discriminate; injection H as <-; split; try reflexivity; [now left|now right]. Qed.
(** C85.  np.add, subtract, multiply and true_divide of two float32 or float64 arrays: every element of the result is the correctly rounded one. *)
Theorem C85_floats : forall obj has_loop name d i u t f enabled nop a1 a2 out n s1 s2 so m,
  numpy_objects obj -> meaning name = OBinary i (Some (arith_op u)) -> machine d = Some t -> format t = Some f ->
  closed_op (fsize f) nop -> (forall x y, pat (fsize f) x -> pat (fsize f) y -> arith_spec u f x y (nop x y)) ->
  0 <= n -> bytes_ok m -> out mod fsize f = 0 /\ so mod fsize f = 0 -> separate_call (fsize f) a1 s1 a2 s2 out so n ->
  let l := loops (initialize obj has_loop wanted) (obj name) d (result name d) in
  let k := chosen enabled (found_binary l) nop a1 a2 out in
  (forall h, ~ call_faults k (fsize f) a1 a2 out n s1 s2 so h m) /\
  (forall h m', call_ends k (fsize f) a1 a2 out n s1 s2 so h m m' -> answered2 (arith_spec u f) (fsize f) a1 s1 a2 s2 out so n m m') /\
  (forall T zz sched, WORK_ITEM_BIG <= n -> 0 <= T -> exists more m', call_ends k (fsize f) a1 a2 out n s1 s2 so (Threaded T zz (sched ++ more)) m m').
Proof.
  intros obj has_loop name d i u t f enabled nop a1 a2 out n s1 s2 so m N M D Ft Hc Hnop Hn Hm Hal Hsc l. destruct (format_known t f Ft) as [K _].
  apply binary_either with (op := fscalar (arith_op u) f) (V := fun _ => True); try assumption; [now apply fsize_good| |intros; now apply Hnop|auto].
  intros k F. rewrite (found_flt obj has_loop name d i _ f t _ N M D Ft k F). split; [now apply fentry_sound|].
  intros x y Hx Hy _ _. apply (fpat f x K) in Hx. apply (fpat f y K) in Hy.
  destruct u; cbn [arith_op arith_spec fscalar]; [apply add_ok|apply sub_ok|apply mul_ok|apply div_ok]; assumption.
Qed.
Print Assumptions C85_floats.

(** ---------- comparisons ---------- *)
(** C85.  np.equal, not_equal, less, less_equal, greater and greater_equal of two arrays of the same dtype, any of the hooked ones: every output
    byte is 1 or 0 as the comparison of the ORIGINAL elements holds or not. *)
Theorem C85_comparisons : forall obj has_loop name d c t enabled ncmp a1 a2 out n s1 s2 so m,
  numpy_objects obj -> meaning name = OCompare c -> machine d = Some t ->
  (forall x y, pat (csize t) x -> pat (csize t) y -> (ncmp x y = true <-> holds c t x y)) ->
  0 <= n -> bytes_ok m -> separate_cmp (csize t) a1 s1 a2 s2 out so n ->
  let l := loops (initialize obj has_loop wanted) (obj name) d (result name d) in
  let k := cchosen_at enabled (found_compare l) (csize t) ncmp in
  (forall h, ~ cmp_faults k a1 a2 out n s1 s2 so h m) /\
  (forall h m', cmp_ends k a1 a2 out n s1 s2 so h m m' -> compared c t a1 s1 a2 s2 out so n m m') /\
  (forall T zz sched, WORK_ITEM_BIG <= n -> 0 <= T -> exists more m', cmp_ends k a1 a2 out n s1 s2 so (Threaded T zz (sched ++ more)) m m').
Proof.
  intros obj has_loop name d c t enabled ncmp a1 a2 out n s1 s2 so m N M D Hnc Hn Hm Hsc l k.
  assert (E : exists b, k = cchosen b c t (csize t) ncmp).
  { pose proof (at_name obj has_loop name d (result name d) N ltac:(rewrite M; discriminate)) as A. unfold k. fold l in A.
    destruct l as [|c0 op a]; [exists false; reflexivity|]. destruct A as (A1 & _ & A2). rewrite M in A1. injection A1 as <-. cbn [found_compare]. rewrite A2.
    unfold kernel_of_ufunc. rewrite D, M. cbn [kernel_for cchosen_at]. exists enabled. reflexivity. }
  destruct E as (b & ->). now apply C72_comparisons.
Qed.
Print Assumptions C85_comparisons.

(** ---------- unary ufuncs ---------- *)
Lemma not_finite_unused name : meaning name <> OUnary ISNOTFINITE.
Proof.
  intros H. unfold meaning in H. destruct (assoc name operations) as [o|] eqn:E; [|discriminate]. subst o. apply assoc_in in E.
  revert E. cbn [operations In]. intuition discriminate.
Qed.
Lemma unary_numpy sz szo nop a out n s so m enabled (P : Z -> Z -> Prop) (V : Z -> Prop) : 0 < sz -> 0 < szo ->
  (forall x, pat sz x -> pat szo (nop x)) -> (forall x, V x -> P x (nop x)) ->
  0 <= n -> bytes_ok m -> separate_un sz szo a s out so n -> (forall i, 0 <= i < n -> V (ld sz m (a + i * s))) ->
  let k := uchosen enabled None so sz szo nop in
  (forall h, ~ un_faults k a out n s so h m) /\
  (forall h m', un_ends k a out n s so h m m' ->
    (forall i, 0 <= i < n -> P (ld sz m (a + i * s)) (ld szo m' (out + i * so))) /\
    (forall b, (forall i, 0 <= i < n -> ~ (out + i * so <= b < out + i * so + szo)) -> m' b = m b)) /\
  (forall T zz sched, WORK_ITEM_BIG <= n -> 0 <= T -> exists more m', un_ends k a out n s so (Threaded T zz (sched ++ more)) m m').
Proof.
  intros Hs Ho Hcl HP Hn Hm Hsc HV k.
  destruct (chosen_call None sz szo nop Hs Ho ltac:(discriminate) Hcl enabled a out n s so m Hn Hm Hsc) as (C1 & C2 & C3). fold k in C1, C2, C3.
  split; [exact C1|]. split; [|exact C3]. intros h m' H. destruct (C2 h m' H) as [D1 D2]. split; [|exact D2].
  intros i Hi. rewrite D1 by exact Hi. change (urun k a out n s so m) with (numpy_loop sz szo nop a out n s so m).
  rewrite (proj1 (loop_outputs sz szo nop a out n s so m ltac:(lia) ltac:(lia) Hcl Hn Hm Hsc) i Hi). now apply HP, HV.
Qed.
Lemma uchosen_off found so sz szo nop : uchosen false found so sz szo nop = UNumpy sz szo nop.
Proof. destruct found; reflexivity. Qed.
Lemma found_un obj has_loop name d t o libm enabled so sz szo nop : numpy_objects obj -> category (meaning name) = Some Unary -> machine d = Some t ->
  forall kn, kernel_for (meaning name) t = option_map KUn kn ->
  exists b, uchosen enabled (found_unary libm (loops (initialize obj has_loop wanted) (obj name) d o)) so sz szo nop = uchosen b kn so sz szo nop.
Proof.
  intros N C D kn K. pose proof (at_name obj has_loop name d o N ltac:(intros E; rewrite E in C; discriminate)) as A.
  destruct (loops (initialize obj has_loop wanted) (obj name) d o) as [u0 d0 o0|c op a].
  - exists false. rewrite uchosen_off. reflexivity.
  - destruct A as (A1 & _ & A2). rewrite C in A1. injection A1 as <-. cbn [found_unary]. rewrite A2. unfold kernel_of_ufunc. rewrite D, K.
    exists enabled. destruct kn; reflexivity.
Qed.
(** C85.  np.abs, negative, sign, invert, bitwise_not, logical_not, signbit, isnan, isinf and isfinite of an array of any hooked dtype: every
    element of the result is NumPy's answer for the ORIGINAL element. *)
Theorem C85_unary : forall obj has_loop name d u t enabled libm nop a out n s so m,
  numpy_objects obj -> meaning name = OUnary u -> machine d = Some t ->
  (forall x, pat (csize t) x -> pat (out_size u t) (nop x)) -> (forall x, proper t x -> is_answer u t x (nop x)) ->
  0 <= n -> bytes_ok m -> separate_un (csize t) (out_size u t) a s out so n ->
  (forall i, 0 <= i < n -> proper t (ld (csize t) m (a + i * s))) ->
  let l := loops (initialize obj has_loop wanted) (obj name) d (result name d) in
  let k := uchosen enabled (found_unary libm l) so (csize t) (out_size u t) nop in
  (forall h, ~ un_faults k a out n s so h m) /\
  (forall h m', un_ends k a out n s so h m m' ->
    (forall i, 0 <= i < n -> is_answer u t (ld (csize t) m (a + i * s)) (ld (out_size u t) m' (out + i * so))) /\
    (forall b, (forall i, 0 <= i < n -> ~ (out + i * so <= b < out + i * so + out_size u t)) -> m' b = m b)) /\
  (forall T zz sched, WORK_ITEM_BIG <= n -> 0 <= T -> exists more m', un_ends k a out n s so (Threaded T zz (sched ++ more)) m m').
Proof.
  intros obj has_loop name d u t enabled libm nop a out n s so m N M D Hcl Hnop Hn Hm Hsc Hv l k.
  assert (Hq : 0 < out_size u t) by (pose proof (csize_pos t); destruct u; cbn [out_size]; lia).
  destruct (found_un obj has_loop name d t (result name d) libm enabled so (csize t) (out_size u t) nop N ltac:(rewrite M; reflexivity) D (kGetUnaryOp u t)) as (b & E).
  { rewrite M. destruct t; reflexivity. }
  unfold k, l. rewrite E. clear k l E.
  assert (R : replaced_un u t \/ kGetUnaryOp u t = None \/ u = ISNOTFINITE).
  { destruct u, t as [t| |]; try destruct t; cbn [replaced_un kGetUnaryOp]; auto. }
  destruct R as [R|[R|R]].
  - now apply C73_unary_ufuncs.
  - rewrite R. apply unary_numpy with (V := proper t); try assumption. apply csize_pos.
  - exfalso. subst u. exact (not_finite_unused name M).
Qed.
Print Assumptions C85_unary.
(** C85.  np.floor, ceil and trunc of a float32 or float64 array; np.sqrt *)
Theorem C85_rounding : forall obj has_loop name d r t f enabled libm nop a out n s so m,
  numpy_objects obj -> meaning name = ORound r -> r <> ROUND -> machine d = Some t -> format t = Some f ->
  (forall x, pat (fsize f) x -> pat (fsize f) (nop x) /\ rounded (P_op r) f x (nop x)) ->
  0 <= n -> bytes_ok m -> separate_un (fsize f) (fsize f) a s out so n ->
  let l := loops (initialize obj has_loop wanted) (obj name) d (result name d) in
  let k := uchosen enabled (found_unary libm l) so (fsize f) (fsize f) nop in
  (forall h, ~ un_faults k a out n s so h m) /\
  (forall h m', un_ends k a out n s so h m m' -> rounded_all (P_op r) f a s out so n m m') /\
  (forall T zz sched, WORK_ITEM_BIG <= n -> 0 <= T -> exists more m', un_ends k a out n s so (Threaded T zz (sched ++ more)) m m').
Proof.
  intros obj has_loop name d r t f enabled libm nop a out n s so m N M Hr D Ft Hnop Hn Hm Hsc l k. destruct (format_known t f Ft) as [K _].
  destruct (found_un obj has_loop name d t (result name d) libm enabled so (fsize f) (fsize f) nop N ltac:(rewrite M; reflexivity) D (kGetRoundOp r (fty f))) as (b & E).
  { rewrite M. destruct t; cbn [format] in Ft; try discriminate; injection Ft as <-; reflexivity. }
  unfold k, l. rewrite E. apply C73_rounding; try assumption. intros; contradiction.
Qed.
Print Assumptions C85_rounding.
Theorem C85_sqrt : forall obj has_loop name d t f enabled libm nop a out n s so m,
  numpy_objects obj -> meaning name = OSqrt -> machine d = Some t -> format t = Some f ->
  (forall x, pat (fsize f) x -> pat (fsize f) (nop x) /\ is_root f x (nop x)) ->
  0 <= n -> bytes_ok m -> separate_un (fsize f) (fsize f) a s out so n ->
  let l := loops (initialize obj has_loop wanted) (obj name) d (result name d) in
  let k := uchosen enabled (found_unary libm l) so (fsize f) (fsize f) nop in
  (forall h, ~ un_faults k a out n s so h m) /\
  (forall h m', un_ends k a out n s so h m m' ->
    (forall i, 0 <= i < n -> is_root f (ld (fsize f) m (a + i * s)) (ld (fsize f) m' (out + i * so))) /\
    (forall b, (forall i, 0 <= i < n -> ~ (out + i * so <= b < out + i * so + fsize f)) -> m' b = m b)) /\
  (forall T zz sched, WORK_ITEM_BIG <= n -> 0 <= T -> exists more m', un_ends k a out n s so (Threaded T zz (sched ++ more)) m m').
Proof.
  intros obj has_loop name d t f enabled libm nop a out n s so m N M D Ft Hnop Hn Hm Hsc l k. destruct (format_known t f Ft) as [K _].
  destruct (found_un obj has_loop name d t (result name d) libm enabled so (fsize f) (fsize f) nop N ltac:(rewrite M; reflexivity) D (kGetSqrtOp f)) as (b & E).
  { rewrite M. destruct t; cbn [format] in Ft; try discriminate; injection Ft as <-; reflexivity. }
  unfold k, l. rewrite E. now apply C76_sqrt.
Qed.
Print Assumptions C85_sqrt.
(** C85.  np.sin, cos, exp and log: what one unthreaded call of the kernel computes (C58-C64 say how close that is), wherever the call runs. *)
Theorem C85_trig : forall obj has_loop name d u t f libm nop a out n s so m,
  numpy_objects obj -> meaning name = OTrig u -> machine d = Some t -> format t = Some f ->
  scalar_fun f libm -> scalar_fun f nop -> 0 <= n -> bytes_ok m -> separate_un (fsize f) (fsize f) a s out so n ->
  let l := loops (initialize obj has_loop wanted) (obj name) d (result name d) in
  let k := uchosen true (found_unary libm l) so (fsize f) (fsize f) nop in
  let answer m' := (forall i, 0 <= i < n -> ld (fsize f) m' (out + i * so) = ld (fsize f) (TrigCall u f libm (numpy_loop (fsize f) (fsize f) nop) a out n s so m) (out + i * so)) \/
                   (forall i, 0 <= i < n -> ld (fsize f) m' (out + i * so) = nop (ld (fsize f) m (a + i * s))) in
  (forall h, ~ un_faults k a out n s so h m) /\
  (forall h m', un_ends k a out n s so h m m' -> answer m' /\
    (forall b, (forall i, 0 <= i < n -> ~ (out + i * so <= b < out + i * so + fsize f)) -> m' b = m b)) /\
  (forall T zz sched, WORK_ITEM_BIG <= n -> 0 <= T -> exists more m', un_ends k a out n s so (Threaded T zz (sched ++ more)) m m').
Proof.
  intros obj has_loop name d u t f libm nop a out n s so m N M D Ft Hl Hnop Hn Hm Hsc l k answer. destruct (format_known t f Ft) as [K _].
  assert (Hs : 0 < fsize f) by (destruct K as [-> | ->]; reflexivity).
  pose proof (at_name obj has_loop name d (result name d) N ltac:(rewrite M; discriminate)) as A. fold l in A.
  assert (E : found_unary libm l = None \/ found_unary libm l = kGetTrigOp u f libm).
  { destruct l as [|c op a0]; [now left|]. destruct A as (A1 & A0 & A2). rewrite M in A1. injection A1 as <-. cbn [found_unary]. rewrite A2.
    unfold kernel_of_ufunc. rewrite D, M. right.
    assert (Fa : fmt_of a0 = Some f). { subst a0. destruct t; cbn [format] in Ft; try discriminate; injection Ft as <-; apply machine_dtypes in D as D'; cbn in D';
      repeat (destruct D' as [<- | D']; [first [discriminate D|reflexivity]|]); contradiction. }
    rewrite Fa. unfold kGetTrigOp. destruct t; cbn [format] in Ft; try discriminate; injection Ft as <-; cbn [kernel_for]; destruct (trig_lane u _); reflexivity. }
  destruct E as [E|E]; unfold k; rewrite E.
  - pose proof (unary_numpy (fsize f) (fsize f) nop a out n s so m true (fun x r => r = nop x) (fun _ => True) Hs Hs) as B.
    destruct B as (B1 & B2 & B3); try assumption; auto. { intros x Hx. now apply (fpat f _ K), Hnop, (fpat f x K). } split; [exact B1|]. split; [|exact B3]. intros h m' H. destruct (B2 h m' H) as [C1 C2]. split; [now right|exact C2].
  - destruct (C73_trig u f libm nop a out n s so m K Hl Hnop Hn Hm Hsc) as (B1 & B2 & B3). split; [exact B1|]. split; [|exact B3].
    intros h m' H. destruct (B2 h m' H) as [C1 C2]. split; [now left|exact C2].
Qed.
Print Assumptions C85_trig.
(** np.subtract of int32 arrays, np.less of int32, np.isnan of float64 and np.sin of float64 are hooked by the modelled NumPy's initialize(), their slots hold
    pnumpy's kernels, and a threaded call of np.subtract returns *)
Example C85_nonvacuous :
  numpy_objects np_names /\
  (let l := loops (initialize np_names np_has wanted) (np_names "subtract") 5 (result "subtract" 5) in
   meaning "subtract" = OBinary (Some SUB) (Some FSUB) /\ machine 5 = Some (I INT32) /\ found_binary l = Some (of_entry (Plain (s_sub 32) (v_sub 32))) /\
   exists sched m', call_ends (chosen true (found_binary l) (s_sub 32) 4100 96 4100) 4 4100 96 4100 100000 4 0 4 (Threaded 3 true sched) (fun _ => 7) m') /\
  found_compare (loops (initialize np_names np_has wanted) (np_names "less") 5 (result "less" 5)) = Some (kGetComparisonOpFast CMP_LT (I INT32)) /\
  found_unary (fun x => x) (loops (initialize np_names np_has wanted) (np_names "isnan") 12 (result "isnan" 12)) = kGetUnaryOp ISNAN DOUBLE /\ kGetUnaryOp ISNAN DOUBLE <> None /\
  found_unary (fun x => x) (loops (initialize np_names np_has wanted) (np_names "sin") 12 (result "sin" 12)) = kGetTrigOp SIN DBL (fun x => x) /\ kGetTrigOp SIN DBL (fun x => x) <> None.
Proof.
  pose proof C83_nonvacuous as (N & _). split; [exact N|].
  assert (S : loops (initialize np_names np_has wanted) (np_names "subtract") 5 (result "subtract" 5) = Stub Binary 2 5) by (vm_compute; reflexivity).
  assert (L : loops (initialize np_names np_has wanted) (np_names "less") 5 (result "less" 5) = Stub Compare 2 5) by (vm_compute; reflexivity).
  assert (U : exists op, loops (initialize np_names np_has wanted) (np_names "isnan") 12 (result "isnan" 12) = Stub Unary op 13 /\ kernel_of Unary op 13 = option_map KUn (kGetUnaryOp ISNAN DOUBLE)).
  { eexists. split; [vm_compute; reflexivity|reflexivity]. }
  assert (T : exists op, loops (initialize np_names np_has wanted) (np_names "sin") 12 (result "sin" 12) = Stub Trig op 13 /\ kernel_of Trig op 13 = option_map KTrig (trig_lane SIN DBL)).
  { eexists. split; [vm_compute; reflexivity|reflexivity]. }
  destruct U as (ou & U & KU), T as (ot & T & KT).
  split; [|split; [rewrite L; reflexivity|split; [rewrite U; cbn [found_unary]; rewrite KU; reflexivity|split; [discriminate|split; [rewrite T; cbn [found_unary]; rewrite KT; reflexivity|discriminate]]]]].
  cbv zeta. split; [reflexivity|]. split; [reflexivity|]. split; [rewrite S; reflexivity|].
  destruct (table_ok SUB INT32 (Plain (s_sub 32) (v_sub 32)) eq_refl) as (Hcl & _).
  destruct (C85_integers np_names np_has "subtract" 5 SUB _ INT32 true (s_sub 32) 4100 96 4100 100000 4 0 4 (fun _ => 7) N eq_refl eq_refl eq_refl) as (_ & _ & H).
  - exact Hcl.
  - intros x y Hx Hy. exact (table_is_numpy SUB INT32 (Plain (s_sub 32) (v_sub 32)) eq_refl x y Hx Hy).
  - lia.
  - intros x. lia.
  - split; reflexivity.
  - unfold separate_call, disj; intros i j; intros; cbn; lia.
  - intros i Hi. split; (apply ld_pat; [cbn; lia|intros x; lia]).
  - destruct (H 3 true [] ltac:(unfold WORK_ITEM_BIG, WORK_ITEM_CHUNK; lia) ltac:(lia)) as (more & m' & Hc). exists more, m'. exact Hc.
Qed.
