(** Sum_Props.v - float64 np.sum: C65 (error bound) and C66 (exactness on integers), unthreaded and for every interleaving of
    the threaded reduction.  The kernel is the one of Reduce_Model.v with the IEEE addition of Arith_Model.v:
    GetReduceMathOpFast ADD, ATOP_DOUBLE: ReduceMathOpFast<double, __m256d, AddOp<double>, ADD_OP_256f64>, ops_binary.cpp:1065,
    L = 4 lanes of 8 bytes; start value of every chunk 0.0 (_pnumpy.cpp:605-612).
    Values are in units of the smallest subnormal number: [fval DBL x] = x * 2^1074. *)
From Verif Require Import Base Threads_Model Threads_Proofs Threads_Live_Proofs Threads_Props Reduce_Model Reduce_Proofs Reduce_Props
  Float_Model Compare_Model Compare_Proofs Compare_Props Unary_Model Unary_Proofs Unary_Props UnaryVal_Props Round_Model Round_Props Arith_Model Arith_Props Trig_Real Trig_Near.

(** ---------- two runs of the reduction side by side ---------- *)
Section Param.
  Context {T T' : Type} (op : T -> T -> T) (op' : T' -> T' -> T').
  (* [Rel h x x']: x, the result of at most h nested operations, stands for x' *)
  Variable Rel : Z -> T -> T' -> Prop.
  Hypothesis mono : forall h h' x x', 0 <= h <= h' -> Rel h x x' -> Rel h' x x'.
  Hypothesis one : forall h x x' y y', 0 <= h -> Rel h x x' -> Rel h y y' -> Rel (h + 1) (op x y) (op' x' y').

  Lemma rel_fold {A} (X : A -> T) (X' : A -> T') (l : list A) : forall h a a', 0 <= h -> (forall i, In i l -> Rel h (X i) (X' i)) -> Rel h a a' ->
    Rel (h + Z.of_nat (length l)) (fold_left (fun a i => op (X i) a) l a) (fold_left (fun a i => op' (X' i) a) l a').
  Proof.
    induction l as [|i l IH]; intros h a a' Hh HX Ha; cbn [fold_left length]; [apply (mono h); [lia|assumption]|].
    apply (mono ((h + 1) + Z.of_nat (length l))); [lia|]. apply IH; [lia| |].
    - intros j Hj. apply (mono h); [lia|]. apply HX. now right.
    - apply one; [assumption| |assumption]. apply HX. now left.
  Qed.
  Lemma rel_loop rd rd' p sz L (l : list Z) : forall h m m', 0 <= h -> 
    (forall c k, In c l -> 0 <= k < 2 * L -> Rel h (rd (p + (2 * L * c + k) * sz)) (rd' (p + (2 * L * c + k) * sz))) ->
    (forall k, 0 <= k < L -> Rel h (fst m k) (fst m' k) /\ Rel h (snd m k) (snd m' k)) ->
    let stp o (r : Z -> _) m c := (vec_op o (fst m) (vec_load r p sz (2 * L * c)), vec_op o (snd m) (vec_load r p sz (2 * L * c + L))) in
    let stp' o (r : Z -> _) m c := (vec_op o (fst m) (vec_load r p sz (2 * L * c)), vec_op o (snd m) (vec_load r p sz (2 * L * c + L))) in
    forall k, 0 <= k < L -> Rel (h + Z.of_nat (length l)) (fst (fold_left (stp op rd) l m) k) (fst (fold_left (stp' op' rd') l m') k) /\
                            Rel (h + Z.of_nat (length l)) (snd (fold_left (stp op rd) l m) k) (snd (fold_left (stp' op' rd') l m') k).
  Proof.
    induction l as [|c l IH]; intros h m m' Hh HR Hm stp stp' k Hk; cbn [fold_left length].
    - destruct (Hm k Hk). split; apply (mono h); try assumption; lia.
    - replace (h + Z.of_nat (S (length l))) with ((h + 1) + Z.of_nat (length l)) by lia. apply IH; [lia| | |assumption].
      + intros d j Hd Hj. apply (mono h); [lia|]. apply HR; [now right|assumption].
      + intros j Hj. destruct (Hm j Hj) as [A B]. unfold stp, stp', vec_op, vec_load. cbn [fst snd]. split; apply one; try assumption.
        * apply HR; [now left|lia].
        * pose proof (HR c (L + j) ltac:(now left) ltac:(lia)) as W. replace (2 * L * c + L + j) with (2 * L * c + (L + j)) by lia. exact W.
  Qed.
  (** nesting of the kernel's operations *)
  Definition nesting (L sz n stride : Z) : Z := if (stride =? sz) && (2 * L <=? n) then n / (2 * L) + L + n mod (2 * L) else n.
  Lemma rel_kernel L sz rd rd' p start start' n stride h : 0 < L -> 0 < sz -> 0 <= n -> 0 <= h ->
    (forall i, 0 <= i < n -> Rel h (rd (p + i * stride)) (rd' (p + i * stride))) -> Rel h start start' ->
    Rel (h + nesting L sz n stride) (ReduceMathOpFast op L sz rd p start n stride) (ReduceMathOpFast op' L sz rd' p start' n stride).
  Proof.
    intros HL Hsz Hn Hh HR Hs. unfold ReduceMathOpFast, nesting, tail_loop, horizontal, lanes. destruct (Z.eqb_spec stride 0) as [E0|E0]; cbn [negb].
    - replace (stride =? sz) with false by lia. cbn [andb].
      pose proof (rel_fold (fun _ : Z => rd p) (fun _ => rd' p) (zrange 0 n) h start start' Hh) as W. rewrite zrange_length in W. replace (Z.of_nat (Z.to_nat (n - 0))) with n in W by lia.
      apply W; [|assumption]. intros i Hi. apply zrange_In in Hi. specialize (HR i Hi). rewrite E0, Z.mul_0_r, Z.add_0_r in HR. exact HR.
    - destruct ((stride =? sz) && (2 * L <=? n)) eqn:C.
      2: { pose proof (rel_fold (fun i => rd (p + i * stride)) (fun i => rd' (p + i * stride)) (zrange 0 n) h start start' Hh) as W. rewrite zrange_length in W.
           replace (Z.of_nat (Z.to_nat (n - 0))) with n in W by lia. apply W; [|assumption]. intros i Hi. apply zrange_In in Hi. exact (HR i Hi). }
      apply andb_true_iff in C. destruct C as [C1 C2]. apply Z.eqb_eq in C1. apply Z.leb_le in C2. subst stride.
      set (q := n / (2 * L)). pose proof (Z.div_mod n (2 * L) ltac:(lia)) as DM. pose proof (Z.mod_pos_bound n (2 * L) ltac:(lia)) as MB. fold q in DM.
      assert (Q1 : 1 <= q) by (apply Z.div_le_lower_bound; lia).
      pose proof (rel_loop rd rd' p sz L (zrange 1 q) h (vec_load rd p sz 0, vec_load rd p sz L) (vec_load rd' p sz 0, vec_load rd' p sz L) Hh) as W.
      cbv zeta in W. rewrite zrange_length in W. fold (vec_loop op rd p sz L q (vec_load rd p sz 0, vec_load rd p sz L)) in W. fold (vec_loop op' rd' p sz L q (vec_load rd' p sz 0, vec_load rd' p sz L)) in W.
      set (m := vec_loop op rd p sz L q _) in *. set (m' := vec_loop op' rd' p sz L q _) in *.
      assert (M : forall k, 0 <= k < L -> Rel (h + q) (vec_op op (fst m) (snd m) k) (vec_op op' (fst m') (snd m') k)).
      { intros k Hk. unfold vec_op. replace (h + q) with (h + (q - 1) + 1) by lia. apply one; [lia| |]; (replace (h + (q - 1)) with (h + Z.of_nat (Z.to_nat (q - 1))) by lia; apply W; [| |assumption]).
        1,3: intros c j Hc Hj; apply zrange_In in Hc; apply HR; nia.
        all: intros j Hj; cbn [fst snd]; unfold vec_load; split; apply HR; lia. }
      clear W. pose proof (rel_fold (vec_op op (fst m) (snd m)) (vec_op op' (fst m') (snd m')) (zrange 0 L) (h + q) start start' ltac:(lia)) as W. rewrite zrange_length in W.
      replace (h + q + Z.of_nat (Z.to_nat (L - 0))) with (h + q + L) in W by lia.
      assert (HZ : Rel (h + q + L) (fold_left (fun a lane => op (vec_op op (fst m) (snd m) lane) a) (zrange 0 L) start) (fold_left (fun a lane => op' (vec_op op' (fst m') (snd m') lane) a) (zrange 0 L) start')).
      { apply W; [intros k Hk; apply zrange_In in Hk; apply M; assumption|apply (mono h); [lia|assumption]]. }
      clear W. assert (HR' : forall i, In i (zrange (2 * L * q) n) -> Rel (h + q + L) (rd (p + i * sz)) (rd' (p + i * sz))).
      { intros i Hi. apply zrange_In in Hi. apply (mono h); [lia|]. apply HR. nia. }
      pose proof (rel_fold (fun i => rd (p + i * sz)) (fun i => rd' (p + i * sz)) (zrange (2 * L * q) n) (h + q + L) _ _ ltac:(lia) HR' HZ) as W.
      rewrite zrange_length in W. replace (h + q + L + Z.of_nat (Z.to_nat (n - 2 * L * q))) with (h + (q + L + n mod (2 * L))) in W by lia. exact W.
  Qed.
  (** the threaded reduction: every chunk from [e], the chunk results from [init] *)
  Lemma rel_threaded L sz rd rd' inp stride init init' e e' n W zz junk junk' wild wild' sched sched' part part' : 0 < L -> 0 < sz -> 0 < n -> 0 <= W ->
    (forall i, 0 <= i < n -> Rel 0 (rd (inp + i * stride)) (rd' (inp + i * stride))) -> Rel 0 init init' -> Rel 0 e e' ->
    let r := mkRed T inp stride init (Some e) (ReduceMathOpFast op L sz) in
    let r' := mkRed T' inp stride init' (Some e') (ReduceMathOpFast op' L sz) in
    returned r rd n W zz junk sched part -> returned r' rd' n W zz junk' sched' part' ->
    forall N, (forall k, 0 <= k <= 16384 -> nesting L sz k stride <= N) ->
    Rel (N + nesting L sz (red_chunks n) sz) (finish_kernel r sz n wild part) (finish_kernel r' sz n wild' part').
  Proof.
    intros HL Hsz Hn HW HR Hi He r r' [Ret P] [Ret' P'] N HN. pose proof (returned_parts r rd n W zz HW junk sched Ret) as Q. pose proof (returned_parts r' rd' n W zz HW junk' sched' Ret') as Q'.
    rewrite P in Q. rewrite P' in Q'. unfold finish_kernel. unfold r at 1, r' at 1. cbn [r_kernel r_init].
    assert (CH : 0 < red_chunks n /\ 16384 * red_chunks n - 16384 < n) by (unfold red_chunks; change WORK_ITEM_CHUNK with 16384; lia).
    assert (N0 : 0 <= N). { specialize (HN 0 ltac:(lia)). unfold nesting in HN. destruct (_ && _) eqn:B; [|assumption]. apply andb_true_iff in B. destruct B as [_ B]. apply Z.leb_le in B. lia. }
    apply rel_kernel; try lia; [|apply (mono 0); [lia|assumption]].
    intros w Hw. unfold buffer. replace (0 + w * sz) with (w * sz) by lia. rewrite Z_mod_mult. destruct (Z.leb_spec 0 (w * sz)); [|nia]. destruct (Z.ltb_spec (w * sz) (red_chunks n * sz)); [|nia].
    cbn [andb Z.eqb]. rewrite Z.div_mul by lia. rewrite Q, Q' by lia. unfold chunk_value, r, r'. cbn [r_kernel r_in r_stride start_val r_special r_init]. unfold start_val. cbn [r_special].
    apply (mono (0 + nesting L sz (Z.min 16384 (n - 16384 * w)) stride)).
    - specialize (HN (Z.min 16384 (n - 16384 * w)) ltac:(lia)). split; [|lia]. unfold nesting. destruct (_ && _); [|lia].
      pose proof (Z.mod_pos_bound (Z.min 16384 (n - 16384 * w)) (2 * L) ltac:(lia)). pose proof (Z.div_pos (Z.min 16384 (n - 16384 * w)) (2 * L) ltac:(lia) ltac:(lia)). lia.
    - apply rel_kernel; try lia; [|assumption]. intros i Hk. specialize (HR (16384 * w + i) ltac:(lia)).
      replace (inp + 16384 * w * stride + i * stride) with (inp + (16384 * w + i) * stride) by ring. exact HR.
  Qed.
End Param.
Lemma nesting_full k n : 0 <= k -> nesting 4 8 k 8 <= k / 8 + 11 /\ nesting 4 8 k n <= k.
Proof.
  intros Hk. unfold nesting. pose proof (Z.mod_pos_bound k (2 * 4) ltac:(lia)). pose proof (Z.div_mod k (2 * 4) ltac:(lia)). change (2 * 4) with 8 in *. change (8 =? 8) with true. cbn [andb].
  split; [destruct (Z.leb_spec 8 k); [lia|]; assert (k / 8 = 0) by (apply Z.div_small; lia); lia|]. destruct (n =? 8); cbn [andb]; [|lia]. destruct (Z.leb_spec 8 k); [|lia]. lia.
Qed.


(** ---------- sums ---------- *)
Definition pair_add (u v : Z * Z) : Z * Z := (fst u + fst v, snd u + snd v).
Lemma pair_assoc x y z : pair_add x (pair_add y z) = pair_add (pair_add x y) z.
Proof. unfold pair_add. cbn [fst snd]. f_equal; ring. Qed.
Lemma pair_comm x y : pair_add x y = pair_add y x.
Proof. unfold pair_add. f_equal; ring. Qed.
Lemma pair_sum x n (a : Z * Z) : reduce_seq pair_add x n a = (fst a + sum_of (fun i => fst (x i)) n, snd a + sum_of (fun i => snd (x i)) n).
Proof.
  unfold reduce_seq, sum_of. generalize (zrange 0 n). intros l. revert a. induction l as [|i l IH]; intros a; cbn [fold_left map fold_right]; [destruct a; cbn [fst snd]; f_equal; ring|].
  rewrite IH. unfold pair_add. cbn [fst snd]. f_equal; ring.
Qed.
Lemma pair_kernel rd inp stride init n : 0 <= n ->
  ReduceMathOpFast pair_add 4 8 rd inp init n stride = (fst init + sum_of (fun i => fst (rd (inp + i * stride))) n, snd init + sum_of (fun i => snd (rd (inp + i * stride))) n).
Proof. intros Hn. rewrite (C12_vector_reduce_is_fold pair_add pair_assoc pair_comm) by lia. apply pair_sum. Qed.
Lemma pair_threaded rd inp stride init n W zz junk wild sched part : 0 < n -> 0 <= W ->
  let r := mkRed (Z * Z) inp stride init (Some (0, 0)) (ReduceMathOpFast pair_add 4 8) in
  returned r rd n W zz junk sched part ->
  finish_kernel r 8 n wild part = (fst init + sum_of (fun i => fst (rd (inp + i * stride))) n, snd init + sum_of (fun i => snd (rd (inp + i * stride))) n).
Proof.
  intros Hn HW r Hr. pose proof (C10_general pair_add (ReduceMathOpFast pair_add 4 8) inp stride init (Some (0, 0)) rd n W zz junk wild sched part 8 pair_assoc pair_comm) as G. cbv zeta in G. unfold r. rewrite G; clear G; try lia; try assumption.
  - apply pair_sum.
  - intros. apply (C12_vector_reduce_is_fold pair_add pair_assoc pair_comm); lia.
  - intros l. set (v := fold_left _ l init). unfold pair_add. cbn [fst snd]. destruct v; cbn [fst snd]; f_equal; ring.
Qed.

Section Float.
  Let f := DBL.
  Let K : known f := or_intror eq_refl.
  Let P := 2 ^ 53.
  Let Ph (h : Z) := P ^ h.
  Let Qh (h : Z) := (P + 1) ^ h.
  Lemma pow_s b h : 0 <= h -> b ^ (h + 1) = b * b ^ h.
  Proof. intros H. replace (h + 1) with (Z.succ h) by lia. now rewrite Z.pow_succ_r. Qed.
  Lemma pow_le h : 0 <= h -> 0 < P ^ h <= (P + 1) ^ h.
  Proof. intros H. split; [apply Z.pow_pos_nonneg; [reflexivity|assumption]|apply Z.pow_le_mono_l; unfold P; lia]. Qed.

  (** h nested additions, each with relative error 1/P *)
  Definition stands (h x : Z) (v : Z * Z) : Prop :=
    Z.abs (fst v) <= snd v /\ ((P + 1) ^ h * snd v <= max_fin f * P ^ h -> fin f x /\ P ^ h * Z.abs (fval f x - fst v) <= ((P + 1) ^ h - P ^ h) * snd v).
  Lemma stands_up h x v : 0 <= h -> stands h x v -> stands (h + 1) x v.
  Proof.
    intros Hh [B H]. split; [exact B|]. intros M. pose proof (pow_le h Hh) as [P1 P2]. rewrite !pow_s in * by lia. set (p := P ^ h) in *. set (q := (P + 1) ^ h) in *. assert (PP : 0 < P) by reflexivity. clearbody P p q.
    destruct H as [F E]; [nia|]. split; [exact F|]. nia.
  Qed.
  Lemma stands_mono h h' x v : 0 <= h <= h' -> stands h x v -> stands h' x v.
  Proof.
    intros [Hh Hl] H. replace h' with (h + (h' - h)) by lia. assert (D : 0 <= h' - h) by lia. revert D. generalize (h' - h) as d. apply natlike_ind; [now rewrite Z.add_0_r|].
    intros d Hd IH. replace (h + Z.succ d) with (h + d + 1) by lia. apply stands_up; [lia|exact IH].
  Qed.
  Lemma stands_add h x x' y y' : 0 <= h -> stands h x x' -> stands h y y' -> stands (h + 1) (f_add f x y) (pair_add x' y').
  Proof.
    intros Hh [B1 H1] [B2 H2]. destruct x' as [s1 a1], y' as [s2 a2]. unfold pair_add. cbn [fst snd] in *. split; [cbn [fst snd]; lia|]. cbn [fst snd]. intros M.
    pose proof (pow_le h Hh) as [P1 P2]. rewrite !pow_s in * by lia. pose proof (add_fin f K x y) as AF. change (2 * 2 ^ fbits f) with P in AF. set (p := P ^ h) in *. set (q := (P + 1) ^ h) in *. assert (PP : 0 < P) by reflexivity. set (mx := max_fin f) in *. clearbody P p q mx.
    assert (M1 : q * (a1 + a2) <= mx * p) by nia.
    destruct H1 as [F1 E1]; [nia|]. destruct H2 as [F2 E2]; [nia|].
    set (v := fval f x + fval f y) in *. assert (E : p * Z.abs (v - (s1 + s2)) <= (q - p) * (a1 + a2)) by (unfold v; nia).
    assert (V : p * Z.abs v <= q * (a1 + a2)) by nia.
    destruct (AF F1 F2) as [F G]; [nia|]. split; [exact F|]. set (z := fval f (f_add f x y)) in *. clearbody z v. clear AF F F1 F2 E1 E2.
    assert (p * (P * Z.abs (z - v)) <= p * Z.abs v) by nia. nia.
  Qed.
  Lemma stands_leaf x : fin f x -> stands 0 x (fval f x, Z.abs (fval f x)).
  Proof. intros F. split; [cbn [fst snd]; lia|]. intros _. split; [exact F|]. cbn [fst snd]. rewrite Z.sub_diag, !Z.pow_0_r. cbn. lia. Qed.
  (** (1 + 1/P)^h <= 1 + 2h/P *)
  Lemma growth h : 0 <= h -> 2 * h <= P -> (P + 1) ^ h * P <= (P + 2 * h) * P ^ h.
  Proof.
    intros H. revert h H. apply (natlike_ind (fun h => 2 * h <= P -> (P + 1) ^ h * P <= (P + 2 * h) * P ^ h)); [intros _; rewrite !Z.pow_0_r; lia|].
    intros h Hh IH L. specialize (IH ltac:(lia)). replace (Z.succ h) with (h + 1) in * by lia. rewrite !pow_s by lia. pose proof (pow_le h Hh) as [P1 P2]. set (p := P ^ h) in *. set (q := (P + 1) ^ h) in *. assert (PP : 0 < P) by reflexivity. clearbody P p q.
    assert ((P + 1) * (q * P) <= (P + 1) * ((P + 2 * h) * p)) by nia. nia.
  Qed.
  Lemma stands_err h x s a : 0 <= h -> 2 * h <= P -> stands h x (s, a) -> 2 * a <= max_fin f -> fin f x /\ 2 ^ 52 * Z.abs (fval f x - s) <= h * a.
  Proof.
    intros Hh L [B H] M. cbn [fst snd] in *. pose proof (growth h Hh L) as G. pose proof (pow_le h Hh) as [P1 P2]. assert (E : P = 2 * 2 ^ 52) by reflexivity.
    set (p := P ^ h) in *. set (q := (P + 1) ^ h) in *. set (mx := max_fin f) in *. assert (PP : 0 < P) by reflexivity. set (R := 2 ^ 52) in *. clearbody P p q mx R.
    assert (Q2 : q <= 2 * p) by nia. destruct H as [F E1]; [nia|]. split; [exact F|]. set (d := Z.abs (fval f x - s)) in *. assert (0 <= d) by (unfold d; lia). clearbody d.
    assert (p * (P * d) <= (q * P - p * P) * a) by nia. assert ((q * P - p * P) * a <= 2 * h * p * a) by nia. nia.
  Qed.
End Float.

(** ---------- C65 ---------- *)
(** The specification: exact sums, in units of 2^-1074. *)
Definition exact_sum (x : Z -> Z) (n init : Z) : Z := fval DBL init + sum_of (fun i => fval DBL (x i)) n.
Definition abs_sum (x : Z -> Z) (n init : Z) : Z := Z.abs (fval DBL init) + sum_of (fun i => Z.abs (fval DBL (x i))) n.
(** the reduction np.sum runs on float64: _pnumpy.cpp:651-698 *)
Definition sum64 (inp stride init : Z) : redcall Z := mkRed Z inp stride init (Some 0) (ReduceMathOpFast (f_add DBL) 4 8).
(* e, the difference from S of a finite answer, is at most k 2^-52 A *)
Definition sum_within (r S A k : Z) : Prop := fin DBL r /\ 2 ^ 52 * Z.abs (fval DBL r - S) <= k * A.

(** one call of the kernel: n/8 + 11 roundings in the worst case instead of n, if the array is contiguous *)
Theorem C65_unthreaded : forall rd inp stride init n,
  0 <= n <= 2 ^ 50 -> let x := fun i => rd (inp + i * stride) in
  (forall i, 0 <= i < n -> fin DBL (x i)) -> fin DBL init -> 2 * abs_sum x n init <= max_fin DBL ->
  sum_within (reduce_unthreaded (sum64 inp stride init) rd n) (exact_sum x n init) (abs_sum x n init) (if stride =? 8 then n / 8 + 11 else n).
Proof.
  intros rd inp stride init n Hn x Hx Hi M. unfold sum_within, reduce_unthreaded, sum64. cbn [r_kernel r_in r_init r_stride].
  pose proof (rel_kernel (f_add DBL) pair_add stands stands_mono stands_add 4 8 rd (fun a => (fval DBL (rd a), Z.abs (fval DBL (rd a)))) inp init (fval DBL init, Z.abs (fval DBL init)) n stride 0 ltac:(lia) ltac:(lia) ltac:(lia) ltac:(lia)
    (fun i Hi => stands_leaf _ (Hx i Hi)) (stands_leaf _ Hi)) as W.
  rewrite pair_kernel in W by lia. cbn [fst snd] in W. fold (exact_sum x n init) in W. fold (abs_sum x n init) in W.
  apply stands_err; [destruct (stride =? 8); lia|destruct (stride =? 8); lia| |exact M].
  eapply stands_mono; [|exact W]. destruct (nesting_full n stride ltac:(lia)) as [N1 N2].
  assert (0 <= nesting 4 8 n stride). { unfold nesting. destruct (_ && _); [|lia]. pose proof (Z.mod_pos_bound n (2 * 4) ltac:(lia)). pose proof (Z.div_pos n (2 * 4) ltac:(lia) ltac:(lia)). lia. }
  destruct (Z.eqb_spec stride 8) as [->|]; lia.
Qed.
(** on threads: chunks of 16384, every interleaving *)
Theorem C65_threaded : forall rd inp stride init n W zz junk wild sched part,
  0 < n <= 2 ^ 50 -> 0 <= W -> let x := fun i => rd (inp + i * stride) in
  (forall i, 0 <= i < n -> fin DBL (x i)) -> fin DBL init -> 2 * abs_sum x n init <= max_fin DBL ->
  returned (sum64 inp stride init) rd n W zz junk sched part ->
  sum_within (finish_kernel (sum64 inp stride init) 8 n wild part) (exact_sum x n init) (abs_sum x n init)
    ((if stride =? 8 then 2059 else 16384) + n / 131072 + 12).
Proof.
  intros rd inp stride init n W zz junk wild sched part Hn HW x Hx Hi M Ret.
  set (lf := fun v : Z => (fval DBL v, Z.abs (fval DBL v))). set (r' := mkRed (Z * Z) inp stride (lf init) (Some (0, 0)) (ReduceMathOpFast pair_add 4 8)).
  destruct (demo_returned r' (fun a => lf (rd a)) n W zz (fun _ => (0, 0)) ltac:(lia) HW) as (sched' & part' & Ret').
  assert (F0 : fin DBL 0) by (split; [split; [lia|reflexivity]|vm_compute; discriminate]).
  pose proof (rel_threaded (f_add DBL) pair_add stands stands_mono stands_add 4 8 rd (fun a => lf (rd a)) inp stride init (lf init) 0 (0, 0) n W zz junk (fun _ => (0, 0)) wild (fun _ => (0, 0)) sched sched' part part'
    ltac:(lia) ltac:(lia) ltac:(lia) HW (fun i Hi => stands_leaf _ (Hx i Hi)) (stands_leaf _ Hi) (stands_leaf 0 F0) Ret Ret' (if stride =? 8 then 2059 else 16384)) as T.
  assert (N16 : forall k, 0 <= k <= 16384 -> nesting 4 8 k stride <= (if stride =? 8 then 2059 else 16384)).
  { intros k Hk. destruct (nesting_full k stride ltac:(lia)) as [N1 N2]. destruct (Z.eqb_spec stride 8) as [->|]; [|lia]. assert (k / 8 <= 2048) by (apply Z.div_le_upper_bound; lia). lia. }
  specialize (T N16). unfold r' in Ret'. rewrite (pair_threaded (fun a => lf (rd a)) inp stride (lf init) n W zz _ _ _ _ ltac:(lia) HW Ret') in T. cbn [fst snd lf] in T. fold (exact_sum x n init) in T. fold (abs_sum x n init) in T.
  destruct (nesting_full (red_chunks n) 8) as [N1 N2]; [unfold red_chunks; change WORK_ITEM_CHUNK with 16384; lia|].
  assert (C8 : red_chunks n / 8 <= n / 131072 + 1). { unfold red_chunks. change WORK_ITEM_CHUNK with 16384. apply Z.div_le_upper_bound; lia. }
  assert (N0 : 0 <= nesting 4 8 (red_chunks n) 8). { unfold nesting. assert (0 <= red_chunks n) by (unfold red_chunks; change WORK_ITEM_CHUNK with 16384; lia). destruct (_ && _); [|lia]. pose proof (Z.mod_pos_bound (red_chunks n) (2 * 4) ltac:(lia)). pose proof (Z.div_pos (red_chunks n) (2 * 4) ltac:(lia) ltac:(lia)). lia. }
  assert (D : 0 <= n / 131072 <= 2 ^ 40). { split; [apply Z.div_pos; lia|]. apply Z.div_le_upper_bound; lia. }
  apply stands_err; [destruct (stride =? 8); lia|destruct (stride =? 8); lia| |exact M].
  eapply stands_mono; [|exact T]. destruct (stride =? 8); lia.
Qed.
Print Assumptions C65_unthreaded.
Print Assumptions C65_threaded.

(** ---------- C66: integers (or multiples of any 2^(j - 1074)) below 2^53 are summed exactly ---------- *)
Definition counts (j : Z) (h x : Z) (v : Z * Z) : Prop := Z.abs (fst v) <= snd v /\ (snd v < 2 ^ 53 -> fin DBL x /\ fval DBL x = fst v * 2 ^ j).
Lemma counts_add j (Hj : 0 <= j <= 2045) h x x' y y' : 0 <= h -> counts j h x x' -> counts j h y y' -> counts j (h + 1) (f_add DBL x y) (pair_add x' y').
Proof.
  intros _ [B1 H1] [B2 H2]. destruct x' as [s1 a1], y' as [s2 a2]. unfold counts, pair_add. cbn [fst snd] in *. split; [lia|]. intros L. destruct (H1 ltac:(lia)) as [F1 E1]. destruct (H2 ltac:(lia)) as [F2 E2].
  assert (K : known DBL) by now right. assert (PJ : 0 < 2 ^ j <= 2 ^ 2045) by (split; [apply Z.pow_pos_nonneg; lia|apply Z.pow_le_mono_r; lia]).
  assert (MX : max_fin DBL = (2 ^ 53 - 1) * 2 ^ 2045) by (vm_compute; reflexivity).
  destruct (repr DBL K j ltac:(lia) (Z.abs (s1 + s2))) as (g & G1 & G2).
  - change (2 * 2 ^ fbits DBL) with (2 ^ 53). lia.
  - rewrite MX. transitivity ((2 ^ 53 - 1) * 2 ^ j); [apply Z.mul_le_mono_nonneg_r; lia|apply Z.mul_le_mono_nonneg_l; lia].
  - destruct (add_exact DBL K x y g F1 F2 G1) as [F E]; [rewrite G2, E1, E2, <- Z.mul_add_distr_r, Z.abs_mul, (Z.abs_eq (2 ^ j)) by lia; reflexivity|].
    split; [exact F|]. rewrite E, E1, E2. ring.
Qed.
Lemma counts_mono j h h' x v : 0 <= h <= h' -> counts j h x v -> counts j h' x v.
Proof. intros _ H. exact H. Qed.
Lemma sum_of_ext x y n : (forall i, 0 <= i < n -> x i = y i) -> sum_of x n = sum_of y n.
Proof. intros H. unfold sum_of. f_equal. apply map_ext_in. intros i Hi. apply zrange_In in Hi. exact (H i Hi). Qed.
(** element i is k i times 2^j units, and so is the initial value: j = 1074 for integers *)
Definition multiples (j : Z) (x : Z -> Z) (n init : Z) (k : Z -> Z) (k0 : Z) : Prop :=
  0 <= j <= 2045 /\ fin DBL init /\ fval DBL init = k0 * 2 ^ j /\ (forall i, 0 <= i < n -> fin DBL (x i) /\ fval DBL (x i) = k i * 2 ^ j) /\
  Z.abs k0 + sum_of (fun i => Z.abs (k i)) n < 2 ^ 53.
Lemma counts_leaf j x k : fin DBL x -> fval DBL x = k * 2 ^ j -> forall h, counts j h x (k, Z.abs k).
Proof. intros F E h. split; [cbn [fst snd]; lia|]. intros _. split; assumption. Qed.
Theorem C66_unthreaded : forall j rd inp stride init n k k0,
  0 <= n -> multiples j (fun i => rd (inp + i * stride)) n init k k0 ->
  let r := reduce_unthreaded (sum64 inp stride init) rd n in fin DBL r /\ fval DBL r = (k0 + sum_of k n) * 2 ^ j.
Proof.
  intros j rd inp stride init n k k0 Hn (Hj & Fi & Ei & Hx & B) r.
  set (rd' := fun a => let c := fval DBL (rd a) / 2 ^ j in (c, Z.abs c)).
  assert (RD : forall i, 0 <= i < n -> rd' (inp + i * stride) = (k i, Z.abs (k i))).
  { intros i Hk. unfold rd'. cbv zeta. destruct (Hx i Hk) as [_ E]. cbn beta in E. rewrite E, Z.div_mul by (apply Z.pow_nonzero; lia). reflexivity. }
  pose proof (rel_kernel (f_add DBL) pair_add (counts j) (counts_mono j) (counts_add j Hj) 4 8 rd rd' inp init (k0, Z.abs k0) n stride 0 ltac:(lia) ltac:(lia) ltac:(lia) ltac:(lia)) as W.
  rewrite pair_kernel in W by lia. cbn [fst snd] in W. rewrite !(sum_of_ext (fun i => fst (rd' (inp + i * stride))) k) in W by (intros; rewrite RD by assumption; reflexivity).
  rewrite !(sum_of_ext (fun i => snd (rd' (inp + i * stride))) (fun i => Z.abs (k i))) in W by (intros; rewrite RD by assumption; reflexivity).
  apply W; [|apply counts_leaf; assumption|exact B]. intros i Hi. rewrite RD by assumption. apply counts_leaf; apply Hx; assumption.
Qed.
Theorem C66_threaded : forall j rd inp stride init n W zz junk wild sched part k k0,
  0 < n -> 0 <= W -> multiples j (fun i => rd (inp + i * stride)) n init k k0 ->
  returned (sum64 inp stride init) rd n W zz junk sched part ->
  let r := finish_kernel (sum64 inp stride init) 8 n wild part in fin DBL r /\ fval DBL r = (k0 + sum_of k n) * 2 ^ j.
Proof.
  intros j rd inp stride init n W zz junk wild sched part k k0 Hn HW (Hj & Fi & Ei & Hx & B) Ret r.
  set (rd' := fun a => let c := fval DBL (rd a) / 2 ^ j in (c, Z.abs c)).
  assert (RD : forall i, 0 <= i < n -> rd' (inp + i * stride) = (k i, Z.abs (k i))).
  { intros i Hk. unfold rd'. cbv zeta. destruct (Hx i Hk) as [_ E]. cbn beta in E. rewrite E, Z.div_mul by (apply Z.pow_nonzero; lia). reflexivity. }
  set (r' := mkRed (Z * Z) inp stride (k0, Z.abs k0) (Some (0, 0)) (ReduceMathOpFast pair_add 4 8)).
  destruct (demo_returned r' rd' n W zz (fun _ => (0, 0)) ltac:(lia) HW) as (sched' & part' & Ret').
  assert (F0 : fin DBL 0) by (split; [split; [lia|reflexivity]|vm_compute; discriminate]).
  pose proof (rel_threaded (f_add DBL) pair_add (counts j) (counts_mono j) (counts_add j Hj) 4 8 rd rd' inp stride init (k0, Z.abs k0) 0 (0, 0) n W zz junk (fun _ => (0, 0)) wild (fun _ => (0, 0)) sched sched' part part'
    ltac:(lia) ltac:(lia) ltac:(lia) HW) as T. cbv zeta in T. unfold r' in Ret'. rewrite (pair_threaded rd' inp stride (k0, Z.abs k0) n W zz _ (fun _ => (0, 0)) _ _ ltac:(lia) HW Ret') in T. cbn [fst snd] in T.
  rewrite !(sum_of_ext (fun i => fst (rd' (inp + i * stride))) k) in T by (intros; rewrite RD by assumption; reflexivity).
  rewrite !(sum_of_ext (fun i => snd (rd' (inp + i * stride))) (fun i => Z.abs (k i))) in T by (intros; rewrite RD by assumption; reflexivity).
  refine (proj2 (T _ _ _ Ret Ret' 16384 _) B).
  - intros i Hi. rewrite RD by assumption. apply counts_leaf; apply Hx; assumption.
  - apply counts_leaf; assumption.
  - apply (counts_leaf j 0 0 F0). vm_compute. reflexivity.
  - intros q Hq. destruct (nesting_full q stride ltac:(lia)). lia.
Qed.
Print Assumptions C66_unthreaded.
Print Assumptions C66_threaded.

(** ---------- C67: the sum does not depend on threading, bit for bit ---------- *)
(** holds where both are exact.  Missing: inexact sums, where the two orders of addition round differently *)
Theorem C67_exact_partial : forall j rd inp stride init n W zz junk wild sched part k k0,
  0 < n -> 0 <= W -> multiples j (fun i => rd (inp + i * stride)) n init k k0 -> k0 + sum_of k n <> 0 ->
  returned (sum64 inp stride init) rd n W zz junk sched part ->
  finish_kernel (sum64 inp stride init) 8 n wild part = reduce_unthreaded (sum64 inp stride init) rd n.
Proof.
  intros j rd inp stride init n W zz junk wild sched part k k0 Hn HW M NZ Ret. assert (Hj : 0 <= j) by (destruct M; lia). pose proof (Z.pow_pos_nonneg 2 j ltac:(lia) Hj).
  destruct (C66_unthreaded j rd inp stride init n k k0 ltac:(lia) M) as [[F1 _] E1]. destruct (C66_threaded j rd inp stride init n W zz junk wild sched part k k0 Hn HW M Ret) as [[F2 _] E2].
  apply (pat_unique DBL (or_intror eq_refl)); try assumption; [now rewrite E1, E2|]. rewrite E2. nia.
Qed.
(** false for zeros: the sum of n negative zeros from -0.0 is -0.0, but +0.0 on threads, whatever the schedule *)
Definition sgn0 (b : bool) : Z := if b then 2 ^ 63 else 0.
Theorem C67_refuted : forall inp stride n W zz junk wild sched part, 0 < n -> 0 <= W ->
  let rd := fun _ => sgn0 true in let r := sum64 inp stride (sgn0 true) in
  returned r rd n W zz junk sched part ->
  reduce_unthreaded r rd n = sgn0 true /\ finish_kernel r 8 n wild part = sgn0 false.
Proof.
  intros inp stride n W zz junk wild sched part Hn HW rd r Ret.
  set (Rel := fun (_ x : Z) (b : bool) => x = sgn0 b).
  assert (MO : forall h h' x x', 0 <= h <= h' -> Rel h x x' -> Rel h' x x') by (intros; assumption).
  assert (ON : forall h x x' y y', 0 <= h -> Rel h x x' -> Rel h y y' -> Rel (h + 1) (f_add DBL x y) (andb x' y')) by (intros h x [|] y [|] _ -> ->; vm_compute; reflexivity).
  assert (AS : forall x y z, andb x (andb y z) = andb (andb x y) z) by (intros [|] [|] [|]; reflexivity). assert (CO : forall x y, andb x y = andb y x) by (intros [|] [|]; reflexivity).
  assert (FT : forall (l : list Z) (g : Z -> bool), (forall i, In i l -> g i = true) -> fold_left (fun acc i => andb acc (g i)) l true = true).
  { induction l as [|i l IH]; intros g H; cbn [fold_left]; [reflexivity|]. rewrite (H i (or_introl eq_refl)). cbn [andb]. apply IH. intros; apply H; now right. }
  assert (FF : forall (l : list Z) (g : Z -> bool), fold_left (fun acc i => andb acc (g i)) l false = false) by (induction l as [|i l IH]; intros g; cbn [fold_left]; [reflexivity|apply IH]).
  split.
  - unfold reduce_unthreaded, r, sum64. cbn [r_kernel r_in r_init r_stride].
    pose proof (rel_kernel (f_add DBL) andb Rel MO ON 4 8 rd (fun _ => true) inp (sgn0 true) true n stride 0 ltac:(lia) ltac:(lia) ltac:(lia) ltac:(lia) ltac:(reflexivity) ltac:(reflexivity)) as T. unfold Rel at 1 in T. rewrite T.
    f_equal. rewrite (C12_vector_reduce_is_fold andb AS CO) by lia. unfold reduce_seq. apply FT. reflexivity.
  - set (r' := mkRed bool inp stride true (Some false) (ReduceMathOpFast andb 4 8)). destruct (demo_returned r' (fun _ => true) n W zz (fun _ => true) ltac:(lia) HW) as (sched' & part' & Ret').
    pose proof (rel_threaded (f_add DBL) andb Rel MO ON 4 8 rd (fun _ => true) inp stride (sgn0 true) true 0 false n W zz junk (fun _ => true) wild (fun _ => true) sched sched' part part'
      ltac:(lia) ltac:(lia) ltac:(lia) HW ltac:(reflexivity) ltac:(reflexivity) ltac:(reflexivity) Ret Ret' 16384) as T.
    unfold Rel at 1 in T. fold r r' in T. unfold r. unfold sum64. rewrite T by (intros q Hq; destruct (nesting_full q stride ltac:(lia)); lia). f_equal. clear T.
    destruct Ret' as [Rt P']. pose proof (returned_parts r' (fun _ => true) n W zz HW (fun _ => true) sched' Rt) as Q. rewrite P' in Q. unfold finish_kernel, r'. cbn [r_kernel r_init]. rewrite (C12_vector_reduce_is_fold andb AS CO); try lia; [|unfold red_chunks; change WORK_ITEM_CHUNK with 16384; lia].
    unfold reduce_seq. assert (CH : 0 < red_chunks n) by (unfold red_chunks; change WORK_ITEM_CHUNK with 16384; lia). rewrite zrange_cons by lia. cbn [fold_left].
    assert (V : part' 0 = false). { rewrite Q by lia. unfold chunk_value, r', start_val. cbn [r_kernel r_special]. rewrite (C12_vector_reduce_is_fold andb AS CO) by lia. unfold reduce_seq. apply FF. }
    replace (buffer part' 8 (red_chunks n) (fun _ => true) (0 + 0 * 8)) with false; [apply FF|]. unfold buffer. change ((0 + 0 * 8) mod 8 =? 0) with true. change (0 <=? 0 + 0 * 8) with true. change ((0 + 0 * 8) / 8) with 0. destruct (Z.ltb_spec (0 + 0 * 8) (red_chunks n * 8)); [|lia]. cbn [andb]. now rewrite V.
Qed.
Print Assumptions C67_exact_partial.
Print Assumptions C67_refuted.

(** hypotheses: 100000 threes plus five, on three workers; sums of 2^-1 are covered with j = 1073 *)
Example C65_nonvacuous : let three := 4613937818241073152 in let five := 4617315517961601024 in
  exists sched part, returned (sum64 4096 8 five) (fun _ => three) 100000 3 true (fun _ => -1) sched part /\
    multiples 1074 (fun _ => three) 100000 five (fun _ => 3) 5 /\ 2 * abs_sum (fun _ => three) 100000 five <= max_fin DBL /\
    fval DBL (finish_kernel (sum64 4096 8 five) 8 100000 (fun _ => -1) part) = 300005 * 2 ^ 1074.
Proof.
  cbv zeta. set (three := 4613937818241073152). set (five := 4617315517961601024).
  destruct (demo_returned (sum64 4096 8 five) (fun _ => three) 100000 3 true (fun _ => -1) ltac:(lia) ltac:(lia)) as (sched & part & Ret). exists sched, part. split; [exact Ret|].
  assert (F3 : fin DBL three /\ fval DBL three = 3 * 2 ^ 1074) by (split; [split; [split; [unfold three; lia|reflexivity]|vm_compute; discriminate]|vm_compute; reflexivity]).
  assert (F5 : fin DBL five /\ fval DBL five = 5 * 2 ^ 1074) by (split; [split; [split; [unfold five; lia|reflexivity]|vm_compute; discriminate]|vm_compute; reflexivity]).
  assert (SC : forall c n, 0 <= n -> sum_of (fun _ => c) n = c * n).
  { intros c n H. unfold sum_of. pose proof (zrange_length 0 n) as L. revert L. generalize (zrange 0 n). intros l L. assert (Z.of_nat (length l) = n) by lia. rewrite <- H0. clear. induction l as [|i l IH]; cbn [map fold_right length]; [lia|]. rewrite IH. lia. }
  assert (M : multiples 1074 (fun _ => three) 100000 five (fun _ => 3) 5) by (split; [lia|]; split; [apply F5|]; split; [apply F5|]; split; [intros; apply F3|rewrite SC by lia; reflexivity]).
  split; [exact M|]. split; [unfold abs_sum; rewrite SC by lia; vm_compute; discriminate|].
  destruct (C66_threaded 1074 (fun _ => three) 4096 8 five 100000 3 true (fun _ => -1) (fun _ => -1) sched part (fun _ => 3) 5 ltac:(lia) ltac:(lia) M Ret) as [_ ->]. rewrite SC by lia. reflexivity.
Qed.
