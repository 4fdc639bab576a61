(** Trig_SinProps.v - C63: np.sin and np.cos against sin x and cos x; C64: their range. *)
From Coq Require Import Reals Lra.
From Verif Require Import Base Kernel_Model Kernel_Proofs Kernel_Props Float_Model Compare_Model Compare_Proofs Compare_Props Unary_Model Unary_Proofs Unary_Props UnaryVal_Props Round_Model Round_Props Arith_Model Arith_Props Trig_Model Trig_Props Exp_Bounds Log_Bounds Sin_Bounds Trig_Real Trig_Near Trig_Exp Trig_ExpProps Trig_Log Trig_Sin Trig_SinCos.

Inductive circ := Sine | Cosine.
Definition circ_op (u : circ) : top := match u with Sine => SIN | Cosine => COS end.
Definition circ_fun (u : circ) : R -> R := match u with Sine => sin | Cosine => cos end.
Definition circ_lane (u : circ) (f : fmt) : Z -> Z := match u with Sine => sin256 f | Cosine => cos256 f end.
Lemma circ_answer u f libm numpy a out n m i : known f -> scalar_fun f libm -> contiguous f a out n m -> in_groups f n i ->
  elem f (TrigCall (circ_op u) f libm numpy a out n (fsize f) (fsize f) m) out i = circ_lane u f (elem f m a i).
Proof. intros K Hl C G. destruct u; [exact (body_answer SIN f (sin256 f) libm numpy a out n m i K eq_refl Hl C G)|exact (body_answer COS f (cos256 f) libm numpy a out n m i K eq_refl Hl C G)]. Qed.
Lemma circ_ok u f x : known f -> fin f x -> (Rabs (real f x) <= 8192)%R -> let r := circ_lane u f x in
  fin f r /\ (Rabs (real f r - circ_fun u (real f x)) <= far f (66 / 100000000) (506 / 100000000))%R.
Proof. intros K Fx B. destruct u; [exact (sin_ok f K x Fx B)|exact (cos_ok f K x Fx B)]. Qed.

(** ---------- C63 ---------- *)
(** The property: for a finite element x the answer is close to sin x (cos x).  Missing for float32: |x| > 8192 (the
    three-constant reduction loses precision; see C64_float32_refuted), and the elements left to libm. *)
Theorem C63_float32_partial : forall u libm numpy a out n m i,
  scalar_fun FLT libm -> contiguous FLT a out n m -> in_groups FLT n i ->
  let x := elem FLT m a i in
  let r := elem FLT (TrigCall (circ_op u) FLT libm numpy a out n (fsize FLT) (fsize FLT) m) out i in
  fin FLT x -> (Rabs (real FLT x) <= 8192)%R ->
  fin FLT r /\ (Rabs (real FLT r - circ_fun u (real FLT x)) <= 66 / 100000000)%R.
Proof.
  intros u libm numpy a out n m i Hl C G x r Fx B. assert (K : known FLT) by now left. unfold r. rewrite (circ_answer u FLT) by assumption. exact (circ_ok u FLT x K Fx B).
Qed.
(** float64: the same kernel with the float32 polynomials, and rounding where float32 truncates: good to 5.06e-6 only *)
Theorem C63_float64_partial : forall u libm numpy a out n m i,
  scalar_fun DBL libm -> contiguous DBL a out n m -> in_groups DBL n i ->
  let x := elem DBL m a i in
  let r := elem DBL (TrigCall (circ_op u) DBL libm numpy a out n (fsize DBL) (fsize DBL) m) out i in
  fin DBL x -> (Rabs (real DBL x) <= 8192)%R ->
  fin DBL r /\ (Rabs (real DBL r - circ_fun u (real DBL x)) <= 506 / 100000000)%R.
Proof.
  intros u libm numpy a out n m i Hl C G x r Fx B. assert (K : known DBL) by now right. unfold r. rewrite (circ_answer u DBL) by assumption. exact (circ_ok u DBL x K Fx B).
Qed.
(** C63 is false for float64: at 51/128 (cos) and 252/128 (sin) the answer is off by more than 2e-6, ten orders of
    magnitude more than a unit in the last place *)
Definition bad_arg (u : circ) : Z := match u with Sine => 4611545280939032576 | Cosine => 4600849231824027648 end.
Lemma bad_is u : fin DBL (bad_arg u) /\ real DBL (bad_arg u) = match u with Sine => (63 / 32)%R | Cosine => (51 / 128)%R end.
Proof.
  assert (K : known DBL) by now right. split; [apply (fin_of_val DBL K); destruct u; vm_compute; try split; congruence|].
  destruct u; apply real_is; [exact K|reflexivity|vm_compute; reflexivity|exact K|reflexivity|vm_compute; reflexivity].
Qed.
Theorem C63_float64_refuted : forall u libm numpy a out n m i,
  scalar_fun DBL libm -> contiguous DBL a out n m -> in_groups DBL n i ->
  let x := elem DBL m a i in
  let r := elem DBL (TrigCall (circ_op u) DBL libm numpy a out n (fsize DBL) (fsize DBL) m) out i in
  x = bad_arg u -> (Rabs (real DBL x) <= 2)%R /\ fin DBL r /\ (2 / 1000000 <= Rabs (real DBL r - circ_fun u (real DBL x)))%R.
Proof.
  intros u libm numpy a out n m i Hl C G x r E. assert (K : known DBL) by now right. unfold r. rewrite (circ_answer u DBL) by assumption. fold x. rewrite E. destruct (bad_is u) as [F R]. rewrite R.
  split; [destruct u; rewrite Rabs_pos_eq; lra|]. split; [apply (circ_ok u DBL (bad_arg u) K F); rewrite R; destruct u; rewrite Rabs_pos_eq; lra|].
  destruct u; unfold circ_lane, bad_arg, circ_fun.
  - assert (L : sin256 DBL 4611545280939032576 = 4606478524709842757%Z) by (vm_compute; reflexivity). rewrite L.
    rewrite (real_is DBL 4606478524709842757 8303305164566341 9007199254740992 K eq_refl ltac:(vm_compute; reflexivity)).
    destruct (sin_taylor (63 / 32)) as (d & S & D1 & D2); [rewrite Rabs_pos_eq; lra|]. rewrite S. unfold Rabs. destruct (Rcase_abs _); lra.
  - assert (L : cos256 DBL 4600849231824027648 = 4606476835067826586%Z) by (vm_compute; reflexivity). rewrite L.
    rewrite (real_is DBL 4606476835067826586 4150807761275085 4503599627370496 K eq_refl ltac:(vm_compute; reflexivity)).
    destruct (cos_taylor (51 / 128)) as [D1 D2]; [rewrite Rabs_pos_eq; lra|]. unfold Rabs. destruct (Rcase_abs _); lra.
Qed.

(** ---------- C64: the answers stay within [-1, 1] ---------- *)
Lemma circ_range u t : (Rabs (circ_fun u t) <= 1)%R.
Proof. apply Rabs_le. destruct u; [apply SIN_bound|apply COS_bound]. Qed.
(** up to the error of C63, for |x| <= 8192.  Missing: larger |x| - false, see below *)
Theorem C64_partial : forall u f libm numpy a out n m i,
  known f -> scalar_fun f libm -> contiguous f a out n m -> in_groups f n i ->
  let x := elem f m a i in
  let r := elem f (TrigCall (circ_op u) f libm numpy a out n (fsize f) (fsize f) m) out i in
  fin f x -> (Rabs (real f x) <= 8192)%R -> fin f r /\ (Rabs (real f r) <= 1 + 506 / 100000000)%R.
Proof.
  intros u f libm numpy a out n m i K Hl C G x r Fx B. unfold r. rewrite (circ_answer u f) by assumption. fold x. destruct (circ_ok u f x K Fx B) as [F E]. split; [exact F|].
  pose proof (circ_range u (real f x)) as RG. assert (W : (far f (66 / 100000000) (506 / 100000000) <= 506 / 100000000)%R) by (unfold far; destruct (isF f); lra).
  set (c := circ_fun u (real f x)) in *. set (v := real f (circ_lane u f x)) in *. unfold Rabs in *. destruct (Rcase_abs (v - c)), (Rcase_abs c), (Rcase_abs v); lra.
Qed.
(** false in general: a float32 2^29 (float64 2^60) has a "sine" of size above a thousand *)
Definition big_arg (f : fmt) : Z := if isF f then 1308622848 else 4877398396442247168.
Lemma big_is f : known f -> fin f (big_arg f) /\ real f (big_arg f) = (if isF f then 2 ^ 29 else 2 ^ 60)%R.
Proof.
  intros K. split; [apply (fin_of_val f K); destruct K as [-> | ->]; vm_compute; try split; congruence|].
  destruct K as [-> | ->].
  - rewrite (real_is FLT (big_arg FLT) 536870912 1 ltac:(now left) eq_refl ltac:(vm_compute; reflexivity)). change (isF FLT) with true. cbv iota. lra.
  - rewrite (real_is DBL (big_arg DBL) 1152921504606846976 1 ltac:(now right) eq_refl ltac:(vm_compute; reflexivity)). change (isF DBL) with false. cbv iota. lra.
Qed.
Theorem C64_refuted : forall u f libm numpy a out n m i,
  known f -> scalar_fun f libm -> contiguous f a out n m -> in_groups f n i ->
  let x := elem f m a i in
  let r := elem f (TrigCall (circ_op u) f libm numpy a out n (fsize f) (fsize f) m) out i in
  x = big_arg f -> fin f r /\ (1000 <= Rabs (real f r))%R.
Proof.
  intros u f libm numpy a out n m i K Hl C G x r E. unfold r. rewrite (circ_answer u f) by assumption. fold x. rewrite E.
  assert (H : fin f (circ_lane u f (big_arg f)) /\ (1000 * one_val f <= Z.abs (fval f (circ_lane u f (big_arg f))))%Z).
  { split; [apply (fin_of_val f K); destruct K as [-> | ->], u; vm_compute; try split; congruence|destruct K as [-> | ->], u; vm_compute; congruence]. }
  destruct H as [F H]. split; [exact F|]. apply IZR_le in H. rewrite mult_IZR, abs_IZR, (fval_real f K), Rabs_mult, (Rabs_pos_eq (IZR (one_val f))) in H by (left; exact (o_pos f K)).
  exact (Rmult_le_reg_r _ _ _ (o_pos f K) H).
Qed.
(** and a float32 2^31 an infinite one *)
Theorem C64_infinite_refuted : forall u libm numpy a out n m i,
  scalar_fun FLT libm -> contiguous FLT a out n m -> in_groups FLT n i ->
  let r := elem FLT (TrigCall (circ_op u) FLT libm numpy a out n (fsize FLT) (fsize FLT) m) out i in
  elem FLT m a i = 1325400064 -> real FLT (elem FLT m a i) = (2 ^ 31)%R /\ infinite_p FLT r.
Proof.
  intros u libm numpy a out n m i Hl C G r E. assert (K : known FLT) by now left. unfold r. rewrite (circ_answer u FLT) by assumption. rewrite E. split.
  - rewrite (real_is FLT 1325400064 2147483648 1 K eq_refl ltac:(vm_compute; reflexivity)). lra.
  - destruct u; vm_compute; split; reflexivity.
Qed.
Print Assumptions C63_float32_partial.
Print Assumptions C63_float64_partial.
Print Assumptions C63_float64_refuted.
Print Assumptions C64_partial.
Print Assumptions C64_refuted.
Print Assumptions C64_infinite_refuted.
(** hypotheses: arrays of nine equal numbers *)
Example C63_nonvacuous : scalar_fun FLT (fun x => x) /\ scalar_fun DBL (fun x => x) /\
  (let ok f p := contiguous f 4096 8192 9 (cells (fsize f) p) /\ in_groups f 9 3 /\ elem f (cells (fsize f) p) 4096 3 = p /\ fin f p in
   (ok FLT 1077936128 /\ real FLT 1077936128 = (3 / 1)%R) /\ (ok DBL 4613937818241073152 /\ real DBL 4613937818241073152 = (3 / 1)%R) /\
   ok DBL (bad_arg Sine) /\ ok DBL (bad_arg Cosine) /\ ok FLT (big_arg FLT) /\ ok DBL (big_arg DBL) /\ ok FLT 1325400064).
Proof.
  assert (KF : known FLT) by now left. assert (KD : known DBL) by now right.
  assert (OK : forall f p, known f -> elem f (cells (fsize f) p) 4096 3 = p -> fin f p -> contiguous f 4096 8192 9 (cells (fsize f) p) /\ in_groups f 9 3 /\ elem f (cells (fsize f) p) 4096 3 = p /\ fin f p).
  { intros f p K E F. destruct (cells_ok f p K); auto. }
  split; [intros x H; exact H|]. split; [intros x H; exact H|]. cbv zeta.
  split; [split; [apply OK; [exact KF|vm_compute; reflexivity|apply (fin_of_val FLT KF); [vm_compute; split; congruence|vm_compute; discriminate]]|apply real_is; [exact KF|reflexivity|vm_compute; reflexivity]]|].
  split; [split; [apply OK; [exact KD|vm_compute; reflexivity|apply (fin_of_val DBL KD); [vm_compute; split; congruence|vm_compute; discriminate]]|apply real_is; [exact KD|reflexivity|vm_compute; reflexivity]]|].
  split; [apply OK; [exact KD|vm_compute; reflexivity|apply bad_is]|]. split; [apply OK; [exact KD|vm_compute; reflexivity|apply bad_is]|].
  split; [apply OK; [exact KF|vm_compute; reflexivity|apply (big_is FLT KF)]|]. split; [apply OK; [exact KD|vm_compute; reflexivity|apply (big_is DBL KD)]|].
  apply OK; [exact KF|vm_compute; reflexivity|apply (fin_of_val FLT KF); [vm_compute; split; congruence|vm_compute; discriminate]].
Qed.
