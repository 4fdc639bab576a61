(** EntryRed_Props.v - C87: np.sum, prod, min, max, any, all and the bitwise reductions, by name and dtype, after pnumpy.initialize(). *)
From Coq Require Import String.
From Verif Require Import Base Threads_Model Threads_Proofs Reduce_Model Reduce_Proofs Reduce_Props
  Jobs_Model Sort_Model Kernel_Model Kernel_Proofs Kernel_Props Float_Model Compare_Model Compare_Proofs Compare_Props Unary_Model Unary_Proofs Unary_Props UnaryVal_Props Round_Model Round_Props
  Arith_Model Arith_Props Trig_Real Trig_Near Sum_Props Ufunc_Model Ufunc_Proofs Ufunc_Kernel_Proofs RedBytes_Model RedBytes_Proofs RedBytes_Call_Proofs RedBytes_Props
  Prod_Props Hooks_Model Hooks_Props Dispatch_Model Dispatch_Props Entry_Model Entry_Props EntryRed_Model.
Local Open Scope string_scope.
Local Open Scope Z_scope.

(** the start value of a stub is that of the operation the name means *)
Definition start_for (o : operation) (t : cty) : option gvar :=
  match o, t with
  | OBinary (Some f) _, I t => GetReduceStartVal f (AInt t)
  | OBinary _ (Some FADD), DOUBLE => GetReduceStartVal ADD ADouble
  | OBinary _ (Some FMUL), DOUBLE => GetReduceStartVal MUL ADouble
  | _, _ => None
  end.
Definition has_start (o : operation) (t : cty) : bool :=
  match o, t with OBinary (Some _) _, I _ => true | OBinary _ (Some _), DOUBLE => true | _, _ => false end.
Lemma starts_right : Forall (fun e => Forall (fun d => forall t, machine d = Some t -> has_start (meaning (fst e)) t = true ->
  start_of_stub (snd e) (dtype_to_atop d) = start_for (meaning (fst e)) t) dtypes) gBinaryMapping.
Proof.
  unfold gBinaryMapping, dtypes. repeat (constructor; [repeat (constructor; [intros t E; cbn in E; injection E as <-; first [reflexivity|discriminate]|]); constructor|]); constructor.
Qed.
Lemma start_right obj has_loop name d t op a at_ op1 : numpy_objects obj -> machine d = Some t -> has_start (meaning name) t = true ->
  loops (initialize obj has_loop wanted) (obj name) d (result name d) = Stub Binary op a ->
  start_at at_ (Stub Binary op a) op1 = match start_for (meaning name) t with Some g => at_ g | None => op1 end.
Proof.
  intros N D M H. assert (M0 : meaning name <> ONumpy) by (intros E; rewrite E in M; discriminate).
  rewrite init_same in H. destruct (init_wired obj has_loop _ _ _ _ _ _ H) as (Ha & Hd & n & oa & Hn & Hin & Hw & Ho).
  assert (S : n = name).
  { destruct (N name n) as [->|[A B]]; [now apply listed_operation|exists Binary, op; exact Hin|congruence|reflexivity|].
    exfalso. destruct B as [<-|[<-|[]]]; cbn in Hin; repeat (destruct Hin as [Hin|Hin]; [discriminate|]); exact Hin. }
  subst n. pose proof (proj1 (Forall_forall _ _) (proj1 (Forall_forall _ _) starts_right (name, op) Hin) d Hd t D M) as R. cbn [fst snd] in R. subst a.
  cbn [start_at]. now rewrite R.
Qed.

(** C87.  f.reduce of an integer or boolean array after initialize(), whatever loops this NumPy has, whether or not this one was hooked and pnumpy
    enabled or not: no fault; the accumulator ends up with the documented value of the ORIGINAL elements; no byte outside it and the
    call's own buffer changes; a threaded call can always still be brought to return.  Threads only where the stub may split the row:
    a kernel in use or a contiguous array (C11_strided_numpy_refuted). *)
Theorem C87_integers : forall obj has_loop name d f x t enabled nop at_ ip2 stride op1 buf n m,
  numpy_objects obj -> meaning name = OBinary (Some f) x -> machine d = Some (I t) -> result name d = d -> reducible f t = true ->
  (forall x y, valid t x -> valid t y -> answers f t x y (nop x y)) ->
  0 <= n -> globals_in at_ m ->
  let sz := isize t in let v := fun i => ld sz m (ip2 + i * stride) in
  valid t (ld sz m op1) -> (forall i, 0 <= i < n -> valid t (v i)) ->
  let l := loops (initialize obj has_loop wanted) (obj name) d (result name d) in
  let k := rchosen enabled (found_reduce l) nop in
  let pstart := start_at at_ l op1 in
  own_buffer sz ip2 stride op1 buf pstart n ->
  let may_split := is_hooked l /\ (stride = sz \/ (enabled = true /\ found_reduce l <> None)) in
  (forall h, h = Alone \/ may_split ->
    ~ red_faults k sz ip2 stride op1 buf pstart n h m /\
    forall m', red_ends k sz ip2 stride op1 buf pstart n h m m' ->
      reduced f t n v (ld sz m op1) (ld sz m' op1) /\ forall b, ~ touched sz op1 buf n h b -> m' b = m b) /\
  (forall T zz sched, may_split -> WORK_ITEM_BIG <= n -> 0 <= T ->
    exists more m', red_ends k sz ip2 stride op1 buf pstart n (Threaded T zz (sched ++ more)) m m').
Proof.
  intros obj has_loop name d f x t enabled nop at_ ip2 stride op1 buf n m N M D _ Hred Hnop Hn HG sz v Hi Hv l k pstart Hb may_split.
  pose proof (at_name obj has_loop name d (result name d) N ltac:(rewrite M; discriminate)) as A. fold l in A.
  destruct l as [u0 d0 o0|c op a] eqn:El.
  - unfold k. cbn [found_reduce rchosen].
    assert (Kk : ksound (RNumpy nop) nop (valid t)) by (intros u w Hu Hw; split; [reflexivity|apply (Hnop u w Hu Hw)]).
    destruct (red_call (RNumpy nop) nop (valid t) sz ip2 stride op1 buf pstart n m (isize_good t) Kk (valid_pat t) Hn Hi Hi Hv Hb) as [B _].
    destruct (int_values f t nop Hred Hnop (RNumpy nop) (ld sz m) ip2 stride (ld sz m op1) n Hn Hi Hv) as [V1 _]. split.
    + intros h [-> | [[] _]]. destruct (B Alone) as [B1 B2]; [now left|]. split; [exact B1|]. intros m' H. destruct (B2 m' H) as [E1 E2]. split; [|exact E2]. rewrite E1. exact V1.
    + intros T zz sched [[] _].
  - destruct A as (A1 & _ & _). rewrite M in A1. injection A1 as <-.
    pose proof (C83_own_reduction obj has_loop (obj name) d (result name d) op a N El name (listed_operation name ltac:(rewrite M; discriminate)) eq_refl) as R.
    assert (F : found_reduce (Stub Binary op a) = rtable f t).
    { cbn [found_reduce]. rewrite R. unfold reduction_of_ufunc. rewrite D, M. destruct x as [[]|]; cbn [reduction_for]; destruct (rtable f t) as [[o ov]|]; reflexivity. }
    assert (S : pstart = start_ptr at_ f (AInt t) op1).
    { unfold pstart. rewrite (start_right obj has_loop name d (I t) op a at_ op1 N D ltac:(rewrite M; destruct x as [[]|]; reflexivity) El), M. destruct x as [[]|]; reflexivity. }
    unfold k. rewrite F. rewrite S in Hb |- *. clear k.
    destruct (C78_integers f t enabled nop at_ ip2 stride op1 buf n m Hred Hnop Hn HG Hi Hv Hb) as [C1 C2].
    assert (Q : may_split -> stride = isize t \/ (enabled = true /\ rtable f t <> None)) by (intros [_ Q]; rewrite F in Q; exact Q).
    split.
    + intros h Hh. apply C1. destruct Hh as [Hh|Hh]; [now left|right; now apply Q].
    + intros T zz sched Hh. apply C2. now apply Q.
Qed.
Print Assumptions C87_integers.

(** C87.  np.add.reduce of finite float64 with pnumpy's kernel: the error bound of C65 / C78 *)
Theorem C87_float64_sum : forall obj has_loop name d i nop at_ ip2 stride op1 buf n m,
  numpy_objects obj -> meaning name = OBinary i (Some FADD) -> machine d = Some DOUBLE -> 0 <= n <= 2 ^ 50 -> bytes_ok m -> globals_in at_ m ->
  let l := loops (initialize obj has_loop wanted) (obj name) d (result name d) in is_hooked l ->
  let k := rchosen true (found_reduce l) nop in
  let pstart := start_at at_ l op1 in own_buffer 8 ip2 stride op1 buf pstart n ->
  let v := fun i => ld 8 m (ip2 + i * stride) in let init := ld 8 m op1 in
  (forall i, 0 <= i < n -> fin DBL (v i)) -> fin DBL init -> 2 * abs_sum v n init <= max_fin DBL ->
  forall h m', red_ends k 8 ip2 stride op1 buf pstart n h m m' ->
  sum_within (ld 8 m' op1) (exact_sum v n init) (abs_sum v n init)
    (match h with
     | Alone => if stride =? 8 then n / 8 + 11 else n
     | Threaded _ _ _ => (if stride =? 8 then 2059 else 16384) + n / 131072 + 12
     end).
Proof.
  intros obj has_loop name d i nop at_ ip2 stride op1 buf n m N M D Hn Hm HG l Hh k pstart Hb v init.
  pose proof (at_name obj has_loop name d (result name d) N ltac:(rewrite M; discriminate)) as A. fold l in A.
  destruct l as [u0 d0 o0|c op a] eqn:El; [destruct Hh|]. destruct A as (A1 & _ & _). rewrite M in A1. injection A1 as <-.
  pose proof (C83_own_reduction obj has_loop (obj name) d (result name d) op a N El name (listed_operation name ltac:(rewrite M; discriminate)) eq_refl) as R.
  assert (F : found_reduce (Stub Binary op a) = Some (f_add DBL, f_add DBL)).
  { cbn [found_reduce]. rewrite R. unfold reduction_of_ufunc. rewrite D, M. destruct i; reflexivity. }
  assert (S : pstart = start_ptr at_ ADD ADouble op1).
  { unfold pstart. rewrite (start_right obj has_loop name d DOUBLE op a at_ op1 N D ltac:(rewrite M; destruct i; reflexivity) El), M. destruct i; reflexivity. }
  unfold k. rewrite F. cbn [rchosen]. rewrite S in Hb |- *. now apply C78_float64_sum.
Qed.
Print Assumptions C87_float64_sum.

(** C87.  np.prod of finite float64 with pnumpy's kernel: the relative error bound of C82 *)
Theorem C87_float64_prod : forall obj has_loop name d i nop at_ ip2 stride op1 buf n m,
  numpy_objects obj -> meaning name = OBinary i (Some FMUL) -> machine d = Some DOUBLE -> 0 <= n < 2 ^ 50 -> bytes_ok m -> globals_in at_ m ->
  let l := loops (initialize obj has_loop wanted) (obj name) d (result name d) in is_hooked l ->
  let k := rchosen true (found_reduce l) nop in
  let pstart := start_at at_ l op1 in own_buffer 8 ip2 stride op1 buf pstart n ->
  let v := fun i => ld 8 m (ip2 + i * stride) in let init := ld 8 m op1 in
  (forall i, 0 <= i < n -> fin DBL (v i)) -> fin DBL init -> in_range (fun i => real DBL (v i)) n (real DBL init) ->
  forall h m', red_ends k 8 ip2 stride op1 buf pstart n h m m' ->
  prod_within (ld 8 m' op1) (Rdefinitions.Rmult (real DBL init) (Rprod (fun i => real DBL (v i)) n)) n.
Proof.
  intros obj has_loop name d i nop at_ ip2 stride op1 buf n m N M D Hn Hm HG l Hh k pstart Hb v init.
  pose proof (at_name obj has_loop name d (result name d) N ltac:(rewrite M; discriminate)) as A. fold l in A.
  destruct l as [u0 d0 o0|c op a] eqn:El; [destruct Hh|]. destruct A as (A1 & _ & _). rewrite M in A1. injection A1 as <-.
  pose proof (C83_own_reduction obj has_loop (obj name) d (result name d) op a N El name (listed_operation name ltac:(rewrite M; discriminate)) eq_refl) as R.
  assert (F : found_reduce (Stub Binary op a) = Some (f_mul DBL, f_mul DBL)).
  { cbn [found_reduce]. rewrite R. unfold reduction_of_ufunc. rewrite D, M. destruct i; reflexivity. }
  assert (S : pstart = start_ptr at_ MUL ADouble op1).
  { unfold pstart. rewrite (start_right obj has_loop name d DOUBLE op a at_ op1 N D ltac:(rewrite M; destruct i; reflexivity) El), M. destruct i; reflexivity. }
  unfold k. rewrite F. cbn [rchosen]. rewrite S in Hb |- *. now apply C82_prod.
Qed.
Print Assumptions C87_float64_prod.

(** np.minimum.reduce of 70000 int32: hooked, and its threaded call ends with the minimum; np.add and np.multiply of float64 are hooked, with their
    own start values *)
Example C87_nonvacuous : numpy_objects np_names /\
  (let l := loops (initialize np_names np_has wanted) (np_names "minimum") 5 (result "minimum" 5) in
   is_hooked l /\ globals_in demo_at demo_mem /\ own_buffer 4 0 4 600000 700000 (start_at demo_at l 600000) 70000 /\
   exists sched m', red_ends (rchosen true (found_reduce l) (s_min 32)) 4 0 4 600000 700000 (start_at demo_at l 600000) 70000 (Threaded 3 true sched) demo_mem m' /\
     ld 4 m' 600000 = 84215045) /\
  (let l := loops (initialize np_names np_has wanted) (np_names "add") 12 (result "add" 12) in
   is_hooked l /\ found_reduce l = Some (f_add DBL, f_add DBL) /\ start_at demo_at l 600000 = 1000000 /\ bytes_ok demo_mem /\ own_buffer 8 0 4 600000 700000 (start_at demo_at l 600000) 70000) /\
  (let l := loops (initialize np_names np_has wanted) (np_names "multiply") 12 (result "multiply" 12) in
   is_hooked l /\ found_reduce l = Some (f_mul DBL, f_mul DBL) /\ start_at demo_at l 600000 = 1000032).
Proof.
  pose proof C83_nonvacuous as (N & _). pose proof C78_nonvacuous as (G & B & O4 & O8 & T).
  assert (E1 : loops (initialize np_names np_has wanted) (np_names "minimum") 5 (result "minimum" 5) = Stub Binary 5 5) by (vm_compute; reflexivity).
  assert (E2 : loops (initialize np_names np_has wanted) (np_names "add") 12 (result "add" 12) = Stub Binary 1 13) by (vm_compute; reflexivity).
  assert (E3 : loops (initialize np_names np_has wanted) (np_names "multiply") 12 (result "multiply" 12) = Stub Binary 3 13) by (vm_compute; reflexivity).
  rewrite E1, E2, E3. clear E1 E2 E3. cbv zeta.
  split; [exact N|]. split; [|split].
  - split; [exact Logic.I|]. split; [exact G|]. split; [exact O4|]. exact T.
  - split; [exact Logic.I|]. split; [reflexivity|]. split; [reflexivity|]. split; [exact B|exact O8].
  - split; [exact Logic.I|]. split; reflexivity.
Qed.
