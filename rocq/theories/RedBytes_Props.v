(** RedBytes_Props.v - C78: a hooked reduction (np.sum, np.prod, np.min, np.max, any, all, bitwise and/or) computes the documented
    value to the last byte and touches nothing else, alone or on worker threads whose stores sit in store buffers (x86-TSO).
    Specification: [reduced].  [red_ends ... h m m'] (RedBytes_Model.v): the call made in manner [h] ends and turns memory m into m';
    [red_faults]: it makes a wild access.  Accumulator at op1, input elements at ip2 + i * stride, the per-chunk results in a buffer
    at [buf] on the caller's stack. *)
From Verif Require Import Base Threads_Model Threads_Proofs Reduce_Model Reduce_Proofs Reduce_Props
  Jobs_Model Sort_Model Kernel_Model Kernel_Proofs Kernel_Props Float_Model Compare_Model Compare_Proofs Compare_Props Unary_Model Unary_Proofs Unary_Props UnaryVal_Props Round_Model Round_Props
  Arith_Model Arith_Props Trig_Real Trig_Near Sum_Props Ufunc_Model Ufunc_Proofs Ufunc_Kernel_Proofs RedBytes_Model RedBytes_Proofs RedBytes_Call_Proofs.

(** ---------- specification ---------- *)
(** r is what NumPy documents for f.reduce over x 0 .. x (n-1) with initial value [init] *)
Definition reduced (f : ufn) (t : ity) (n : Z) (x : Z -> Z) (init r : Z) : Prop :=
  valid t r /\
  match f, t with
  | (ADD | LOGICAL_OR), BOOL => truth r = true <-> (truth init = true \/ exists i, 0 <= i < n /\ truth (x i) = true)
  | (MUL | LOGICAL_AND), BOOL => truth r = true <-> (truth init = true /\ forall i, 0 <= i < n -> truth (x i) = true)
  | ADD, _ => exists k, number t r = number t init + sum_of (fun i => number t (x i)) n + k * 2 ^ width t
  | MUL, _ => exists k, number t r = number t init * prod_of (fun i => number t (x i)) n + k * 2 ^ width t
  | MINIMUM, _ => (r = init \/ exists i, 0 <= i < n /\ r = x i) /\ number t r <= number t init /\ forall i, 0 <= i < n -> number t r <= number t (x i)
  | MAXIMUM, _ => (r = init \/ exists i, 0 <= i < n /\ r = x i) /\ number t init <= number t r /\ forall i, 0 <= i < n -> number t (x i) <= number t r
  | BITWISE_AND, _ => forall b, 0 <= b -> (Z.testbit r b = true <-> Z.testbit init b = true /\ forall i, 0 <= i < n -> Z.testbit (x i) b = true)
  | BITWISE_OR, _ => forall b, 0 <= b -> (Z.testbit r b = true <-> Z.testbit init b = true \/ exists i, 0 <= i < n /\ Z.testbit (x i) b = true)
  | _, _ => False
  end.
(** subtract and xor are wrong on threads (C11); logical_and/or of other types than bool is another loop *)
Definition reducible (f : ufn) (t : ity) : bool :=
  match f, t with
  | (SUB | BITWISE_XOR), _ => false
  | (LOGICAL_AND | LOGICAL_OR), BOOL => true
  | (LOGICAL_AND | LOGICAL_OR), _ => false
  | _, _ => true
  end.

(** ---------- folding in another type ---------- *)
Section Hom.
  Context {T : Type} (op : Z -> Z -> Z) (opT : T -> T -> T) (Rel : Z -> T -> Prop).
  Hypothesis Ha : forall x y z, opT x (opT y z) = opT (opT x y) z.
  Hypothesis Hc : forall x y, opT x y = opT y x.
  Hypothesis Hone : forall x x' y y', Rel x x' -> Rel y y' -> Rel (op x y) (opT x' y').
  Lemma hom_kval k sz rd rd' p start start' n stride : good_sz sz -> 0 <= n ->
    (forall i, 0 <= i < n -> Rel (rd (p + i * stride)) (rd' (p + i * stride))) -> Rel start start' ->
    Rel (kval k op sz rd p start n stride) (reduce_seq opT (fun i => rd' (p + i * stride)) n start').
  Proof.
    intros Hg Hn H0 Hs. pose proof (good_pos sz Hg). destruct (perReg_props sz Hg) as (_ & Lp & _). destruct k; cbn [kval].
    - rewrite <- (C12_vector_reduce_is_fold opT Ha Hc (perReg sz) sz) by lia.
      apply (rel_kernel op opT (fun _ => Rel) (fun _ _ _ _ _ X => X) (fun _ x x' y y' _ => Hone x x' y y') (perReg sz) sz rd rd' p start start' n stride 0); try lia; assumption.
    - unfold numpy_loop, reduce_seq. revert start start' Hs. assert (G : forall l, (forall i, In i l -> 0 <= i < n) -> forall a a', Rel a a' ->
        Rel (fold_left (fun acc i => op acc (rd (p + i * stride))) l a) (fold_left (fun acc i => opT acc (rd' (p + i * stride))) l a')).
      { induction l as [|i l IH]; intros Hl a a' Haa; cbn [fold_left]; [exact Haa|]. apply IH; [intros j Hj; apply Hl; now right|]. apply Hone; [exact Haa|apply H0, Hl; now left]. }
      apply G. intros i Hi. now apply zrange_In in Hi.
  Qed.
  Lemma hom_threaded k sz rd rd' inp stride start start' init init' n : good_sz sz -> 0 < n ->
    (forall i, 0 <= i < n -> Rel (rd (inp + i * stride)) (rd' (inp + i * stride))) -> Rel start start' -> Rel init init' ->
    (forall l, let v := fold_left (fun acc i => opT acc (rd' (inp + i * stride))) l init' in opT v start' = v) ->
    Rel (threaded_value k op sz rd inp stride start init n) (reduce_seq opT (fun i => rd' (inp + i * stride)) n init').
  Proof.
    intros Hg Hn H0 Hs Hi Habs. pose proof (good_pos sz Hg). set (x := fun i => rd' (inp + i * stride)).
    assert (Ch : 0 < chunks_of n /\ 16384 * chunks_of n - 16384 < n <= 16384 * chunks_of n) by (unfold chunks_of; change WORK_ITEM_CHUNK with 16384; lia).
    set (g := fun w => foldx opT x (16384 * w) (Z.min n (16384 * w + 16384)) start').
    assert (E : reduce_seq opT x n init' = reduce_seq opT (fun w => (fun a => g (a / sz)) (0 + w * sz)) (chunks_of n) init').
    { transitivity (foldx opT x 0 (Z.min n (16384 * chunks_of n)) init'); [unfold reduce_seq, foldx; now rewrite Z.min_l by lia|].
      rewrite <- (combine_chunks opT Ha Hc x init' start' Habs n (chunks_of n)) by lia. unfold reduce_seq. apply fold_left_ext_in. intros a w _. rewrite Z.add_0_l, Z.div_mul by lia. reflexivity. }
    rewrite E. unfold threaded_value. apply (hom_kval k sz _ (fun a => g (a / sz))); try assumption; [lia|].
    intros w Hw. rewrite Z.add_0_l, Z.div_mul by lia. unfold g, foldx. change WORK_ITEM_CHUNK with 16384.
    replace (fold_left (fun acc i => opT acc (x i)) (zrange (16384 * w) (Z.min n (16384 * w + 16384))) start') with
      (reduce_seq opT (fun i => rd' (inp + 16384 * w * stride + i * stride)) (Z.min 16384 (n - 16384 * w)) start').
    - apply hom_kval; try assumption; [lia|]. intros i Hii. specialize (H0 (16384 * w + i) ltac:(lia)). replace (inp + 16384 * w * stride + i * stride) with (inp + (16384 * w + i) * stride) by ring. exact H0.
    - unfold reduce_seq. replace (zrange (16384 * w) (Z.min n (16384 * w + 16384))) with (zrange (16384 * w + 0) (16384 * w + Z.min 16384 (n - 16384 * w))) by (f_equal; lia).
      rewrite <- map_zrange_shift. generalize (zrange 0 (Z.min 16384 (n - 16384 * w))). intros l. generalize start'. induction l as [|i l IH]; intros v; [reflexivity|]. cbn [fold_left map].
      rewrite <- IH. f_equal. f_equal. unfold x. f_equal. ring.
  Qed.
End Hom.

(** ---------- the folds, read in the other type ---------- *)
Lemma absorb_same {T} (op : T -> T -> T) (x : Z -> T) init : (forall x y z, op x (op y z) = op (op x y) z) -> (forall x y, op x y = op y x) -> (forall x, op x x = x) ->
  forall l, let v := fold_left (fun acc i => op acc (x i)) l init in op v init = v.
Proof.
  intros Ha Hc Hi l. cbv zeta. induction l as [|i l IH] using rev_ind; [apply Hi|]. rewrite fold_left_app. cbn [fold_left].
  rewrite <- Ha, (Hc (x i)), Ha, IH. reflexivity.
Qed.
Lemma seq_sum x n i0 : reduce_seq Z.add x n i0 = i0 + sum_of x n.
Proof.
  unfold reduce_seq, sum_of. generalize (zrange 0 n). intros l. revert i0. induction l as [|i l IH]; intros i0; cbn [fold_left map fold_right]; [lia|]. rewrite IH. lia.
Qed.
Lemma seq_prod x n i0 : reduce_seq Z.mul x n i0 = i0 * prod_of x n.
Proof.
  unfold reduce_seq, prod_of. generalize (zrange 0 n). intros l. revert i0. induction l as [|i l IH]; intros i0; cbn [fold_left map fold_right]; [lia|]. rewrite IH. ring.
Qed.
Lemma seq_all (x : Z -> bool) n i0 : reduce_seq andb x n i0 = true <-> (i0 = true /\ forall i, 0 <= i < n -> x i = true).
Proof.
  unfold reduce_seq. assert (G : forall l i0, fold_left (fun acc i => andb acc (x i)) l i0 = true <-> (i0 = true /\ forall i, In i l -> x i = true)).
  { induction l as [|i l IH]; intros b; cbn [fold_left In]; [tauto|]. rewrite IH, andb_true_iff. split.
    - intros [[A B] C]. split; [exact A|]. intros j [<-|Hj]; auto.
    - intros [A B]. auto. }
  rewrite G. split; intros [A B]; (split; [exact A|]); intros i Hi; apply B; now apply zrange_In.
Qed.
Lemma seq_any (x : Z -> bool) n i0 : reduce_seq orb x n i0 = true <-> (i0 = true \/ exists i, 0 <= i < n /\ x i = true).
Proof.
  unfold reduce_seq. assert (G : forall l i0, fold_left (fun acc i => orb acc (x i)) l i0 = true <-> (i0 = true \/ exists i, In i l /\ x i = true)).
  { induction l as [|i l IH]; intros b; cbn [fold_left In]; [firstorder congruence|]. rewrite IH, orb_true_iff. split.
    - intros [[A|B]|(j & C & D)]; eauto.
    - intros [A|(j & [<-|C] & D)]; eauto. }
  rewrite G. split; (intros [A|(i & Hi & B)]; [now left|]); right; exists i; (split; [now apply zrange_In|exact B]).
Qed.
Lemma seq_min x n i0 : let r := reduce_seq Z.min x n i0 in (r = i0 \/ exists i, 0 <= i < n /\ r = x i) /\ r <= i0 /\ forall i, 0 <= i < n -> r <= x i.
Proof.
  unfold reduce_seq. assert (G : forall l i0, let r := fold_left (fun acc i => Z.min acc (x i)) l i0 in (r = i0 \/ exists i, In i l /\ r = x i) /\ r <= i0 /\ forall i, In i l -> r <= x i).
  { induction l as [|i l IH]; intros b; cbn [fold_left In]; [repeat split; [now left|lia|easy]|]. destruct (IH (Z.min b (x i))) as (A & B & C). cbv zeta in *.
    set (r := fold_left _ l _) in *. repeat split; [|lia|].
    - destruct A as [A|(j & A1 & A2)]; [|right; exists j; auto]. destruct (Z.min_spec b (x i)) as [[_ E]|[_ E]]; [left; lia|right; exists i; split; [now left|lia]].
    - intros j [<-|Hj]; [lia|auto]. }
  destruct (G (zrange 0 n) i0) as (A & B & C). cbv zeta in *. repeat split; [|exact B|intros i Hi; apply C; now apply zrange_In].
  destruct A as [A|(i & A1 & A2)]; [now left|right; exists i; split; [now apply zrange_In in A1|exact A2]].
Qed.
Lemma seq_max x n i0 : let r := reduce_seq Z.max x n i0 in (r = i0 \/ exists i, 0 <= i < n /\ r = x i) /\ i0 <= r /\ forall i, 0 <= i < n -> x i <= r.
Proof.
  unfold reduce_seq. assert (G : forall l i0, let r := fold_left (fun acc i => Z.max acc (x i)) l i0 in (r = i0 \/ exists i, In i l /\ r = x i) /\ i0 <= r /\ forall i, In i l -> x i <= r).
  { induction l as [|i l IH]; intros b; cbn [fold_left In]; [repeat split; [now left|lia|easy]|]. destruct (IH (Z.max b (x i))) as (A & B & C). cbv zeta in *.
    set (r := fold_left _ l _) in *. repeat split; [|lia|].
    - destruct A as [A|(j & A1 & A2)]; [|right; exists j; auto]. destruct (Z.max_spec b (x i)) as [[_ E]|[_ E]]; [right; exists i; split; [now left|lia]|left; lia].
    - intros j [<-|Hj]; [lia|auto]. }
  destruct (G (zrange 0 n) i0) as (A & B & C). cbv zeta in *. repeat split; [|exact B|intros i Hi; apply C; now apply zrange_In].
  destruct A as [A|(i & A1 & A2)]; [now left|right; exists i; split; [now apply zrange_In in A1|exact A2]].
Qed.
Lemma valid_pat t x : valid t x -> pat (isize t) x.
Proof. intros H. apply pat_width. destruct t; cbn [valid] in H; try exact H. change (2 ^ width BOOL) with 256. lia. Qed.
Lemma number_inj t x y : valid t x -> valid t y -> number t x = number t y -> x = y.
Proof.
  intros Hx Hy. apply valid_pat, pat_width in Hx, Hy. unfold number. destruct (signed t); [|auto]. apply sval_inj; [apply width_pos|exact Hx|exact Hy].
Qed.

(** ---------- the integer reductions: values ---------- *)
(** the start value of the chunks: 0 for add, 1 for multiply, else the caller's *)
Definition start_of (f : ufn) (init : Z) : Z := match f with ADD => 0 | MUL => 1 | _ => init end.
Lemma int_values f t op : reducible f t = true ->
  (forall x y, valid t x -> valid t y -> answers f t x y (op x y)) ->
  forall k rd inp stride init n, 0 <= n -> valid t init -> (forall i, 0 <= i < n -> valid t (rd (inp + i * stride))) ->
  let x := fun i => rd (inp + i * stride) in
  reduced f t n x init (kval k op (isize t) rd inp init n stride) /\
  (0 < n -> reduced f t n x init (threaded_value k op (isize t) rd inp stride (start_of f init) init n)).
Proof.
  intros Hred Hans k rd inp stride init n Hn Hi Hx x. pose proof (isize_good t) as Hg.
  (* every case: an operation on another type, a relation, an abstraction *)
  assert (Main : forall (T : Type) (opT : T -> T -> T) (Rel : Z -> T -> Prop) (lf : Z -> T),
    (forall x y z, opT x (opT y z) = opT (opT x y) z) -> (forall x y, opT x y = opT y x) ->
    (forall x x' y y', Rel x x' -> Rel y y' -> Rel (op x y) (opT x' y')) ->
    (forall v, valid t v -> Rel v (lf v)) -> forall start', Rel (start_of f init) start' ->
    (forall l, let v := fold_left (fun acc i => opT acc (lf (rd (inp + i * stride)))) l (lf init) in opT v start' = v) ->
    (forall r, Rel r (reduce_seq opT (fun i => lf (x i)) n (lf init)) -> reduced f t n x init r) ->
    reduced f t n x init (kval k op (isize t) rd inp init n stride) /\
    (0 < n -> reduced f t n x init (threaded_value k op (isize t) rd inp stride (start_of f init) init n))).
  { intros T opT Rel lf Ha Hc Ho Hl start' Hs Habs Hfin. split; [|intros Pn]; apply Hfin.
    - apply (hom_kval op opT Rel Ha Hc Ho k (isize t) rd (fun a => lf (rd a)) inp init (lf init) n stride Hg Hn); [intros i Hii; apply Hl, Hx, Hii|apply Hl, Hi].
    - apply (hom_threaded op opT Rel Ha Hc Ho k (isize t) rd (fun a => lf (rd a)) inp stride _ start' init (lf init) n Hg Pn); [intros i Hii; apply Hl, Hx, Hii|exact Hs|apply Hl, Hi|exact Habs]. }
  assert (V0 : valid t 0) by (destruct t; cbn [valid]; auto; (split; [lia|reflexivity])).
  assert (V1 : valid t 1) by (destruct t; cbn [valid]; auto; (split; [lia|reflexivity])).
  assert (N0 : number t 0 = 0) by (destruct t; reflexivity). assert (N1 : number t 1 = 1) by (destruct t; reflexivity).
  (* truth values *)
  assert (Tr : forall (b : bool -> bool -> bool) s', (b = orb \/ b = andb) -> (forall x y, valid t x -> valid t y -> truth (op x y) = b (truth x) (truth y)) ->
    (s' = truth (start_of f init) /\ valid t (start_of f init)) -> ((forall v, b v s' = v) \/ s' = truth init) ->
    (forall r, valid t r -> truth r = reduce_seq b (fun i => truth (x i)) n (truth init) -> reduced f t n x init r) ->
    reduced f t n x init (kval k op (isize t) rd inp init n stride) /\
    (0 < n -> reduced f t n x init (threaded_value k op (isize t) rd inp stride (start_of f init) init n))).
  { intros b s' Hb Ho (Es & Vs) Hab Hfin. apply (Main bool b (fun v w => valid t v /\ truth v = w) truth) with (start' := s').
    - destruct Hb as [-> | ->]; intros [] [] []; reflexivity.
    - destruct Hb as [-> | ->]; intros [] []; reflexivity.
    - intros u u' v v' [U1 U2] [V3 V4]. split; [apply (Hans u v U1 V3)|]. rewrite Ho, U2, V4 by assumption. reflexivity.
    - auto.
    - auto.
    - intros l. cbv zeta. destruct Hab as [Hab| ->]; [apply Hab|]. apply (absorb_same b (fun i => truth (rd (inp + i * stride)))); destruct Hb as [-> | ->]; intros [] ; try intros []; try intros []; reflexivity.
    - intros r [R1 R2]. now apply Hfin. }
  (* min and max *)
  assert (Ex : forall g, (g = Z.min \/ g = Z.max) -> (forall x y, valid t x -> valid t y -> number t (op x y) = g (number t x) (number t y)) -> start_of f init = init ->
    (forall r, valid t r -> number t r = reduce_seq g (fun i => number t (x i)) n (number t init) -> reduced f t n x init r) ->
    reduced f t n x init (kval k op (isize t) rd inp init n stride) /\
    (0 < n -> reduced f t n x init (threaded_value k op (isize t) rd inp stride (start_of f init) init n))).
  { intros g Hgg Ho Es Hfin. apply (Main Z g (fun v w => valid t v /\ number t v = w) (number t)) with (start' := number t init).
    - destruct Hgg as [-> | ->]; intros; lia.
    - destruct Hgg as [-> | ->]; intros; lia.
    - intros u u' v v' [U1 U2] [V3 V4]. split; [apply (Hans u v U1 V3)|]. rewrite Ho, U2, V4 by assumption. reflexivity.
    - auto.
    - rewrite Es. auto.
    - apply (absorb_same g (fun i => number t (rd (inp + i * stride)))); destruct Hgg as [-> | ->]; intros; lia.
    - intros r [R1 R2]. now apply Hfin. }
  assert (Hans' : forall u v, valid t u -> valid t v -> answers f t u v (op u v)) by exact Hans.
  assert (Sum : f = ADD -> (forall u v, valid t u -> valid t v -> exists q, number t (op u v) = number t u + number t v + q * 2 ^ width t) ->
    (forall r, valid t r -> (exists q, number t r = number t init + sum_of (fun i => number t (x i)) n + q * 2 ^ width t) -> reduced f t n x init r) ->
    reduced f t n x init (kval k op (isize t) rd inp init n stride) /\
    (0 < n -> reduced f t n x init (threaded_value k op (isize t) rd inp stride (start_of f init) init n))).
  { intros Ef Ho Hfin. apply (Main Z Z.add (fun v w => valid t v /\ exists q, number t v = w + q * 2 ^ width t) (number t)) with (start' := 0).
    - intros; lia.
    - intros; lia.
    - intros u u' v v' [U1 [q U2]] [V3 [q' V4]]. split; [apply (Hans u v U1 V3)|]. destruct (Ho u v U1 V3) as (q2 & E). exists (q + q' + q2). rewrite E, U2, V4. ring.
    - intros v Hv. split; [exact Hv|]. exists 0. lia.
    - subst f. cbn [start_of]. split; [exact V0|]. exists 0. lia.
    - intros l. cbv zeta. lia.
    - intros r [R1 R2]. apply Hfin; [exact R1|]. rewrite seq_sum in R2. exact R2. }
  assert (Prod : f = MUL -> (forall u v, valid t u -> valid t v -> exists q, number t (op u v) = number t u * number t v + q * 2 ^ width t) ->
    (forall r, valid t r -> (exists q, number t r = number t init * prod_of (fun i => number t (x i)) n + q * 2 ^ width t) -> reduced f t n x init r) ->
    reduced f t n x init (kval k op (isize t) rd inp init n stride) /\
    (0 < n -> reduced f t n x init (threaded_value k op (isize t) rd inp stride (start_of f init) init n))).
  { intros Ef Ho Hfin. apply (Main Z Z.mul (fun v w => valid t v /\ exists q, number t v = w + q * 2 ^ width t) (number t)) with (start' := 1).
    - intros; ring.
    - intros; ring.
    - intros u u' v v' [U1 [q U2]] [V3 [q' V4]]. split; [apply (Hans u v U1 V3)|]. destruct (Ho u v U1 V3) as (q2 & E). exists (q * v' + u' * q' + q * q' * 2 ^ width t + q2). rewrite E, U2, V4. ring.
    - intros v Hv. split; [exact Hv|]. exists 0. lia.
    - subst f. cbn [start_of]. split; [exact V1|]. exists 0. lia.
    - intros l. cbv zeta. lia.
    - intros r [R1 R2]. apply Hfin; [exact R1|]. rewrite seq_prod in R2. exact R2. }
  (* bits: a function from bit numbers to truth values would need extensionality; compare the integers themselves *)
  assert (Bits : forall (g : Z -> Z -> Z) (b : bool -> bool -> bool), ((g = Z.land /\ b = andb) \/ (g = Z.lor /\ b = orb)) ->
    (forall u v, valid t u -> valid t v -> forall j, 0 <= j -> Z.testbit (op u v) j = b (Z.testbit u j) (Z.testbit v j)) -> start_of f init = init ->
    (forall r, valid t r -> (forall j, 0 <= j -> Z.testbit r j = reduce_seq b (fun i => Z.testbit (x i) j) n (Z.testbit init j)) -> reduced f t n x init r) ->
    reduced f t n x init (kval k op (isize t) rd inp init n stride) /\
    (0 < n -> reduced f t n x init (threaded_value k op (isize t) rd inp stride (start_of f init) init n))).
  { intros g b Hgb Ho Es Hfin.
    assert (Eop : forall u v, valid t u -> valid t v -> op u v = g u v).
    { intros u v Hu Hv. apply Z.bits_inj'. intros j Hj. rewrite Ho by assumption. destruct Hgb as [[-> ->]|[-> ->]]; [now rewrite Z.land_spec|now rewrite Z.lor_spec]. }
    apply (Main Z g (fun v w => valid t v /\ v = w) (fun v => v)) with (start' := init).
    - destruct Hgb as [[-> _]|[-> _]]; intros; [apply Z.land_assoc|apply Z.lor_assoc].
    - destruct Hgb as [[-> _]|[-> _]]; intros; [apply Z.land_comm|apply Z.lor_comm].
    - intros u u' v v' [U1 <-] [V3 <-]. split; [apply (Hans u v U1 V3)|now apply Eop].
    - auto.
    - rewrite Es. auto.
    - apply (absorb_same g (fun i => rd (inp + i * stride))); destruct Hgb as [[-> _]|[-> _]]; intros; first [apply Z.land_assoc|apply Z.lor_assoc|apply Z.land_comm|apply Z.lor_comm|apply Z.land_diag|apply Z.lor_diag].
    - intros r [R1 R2]. apply Hfin; [exact R1|]. intros j Hj. rewrite R2. unfold reduce_seq. generalize init. generalize (zrange 0 n). intros l. clear - Hgb.
      induction l as [|i l IH]; intros v; cbn [fold_left]; [reflexivity|]. rewrite IH. f_equal. destruct Hgb as [[-> ->]|[-> ->]]; [apply Z.land_spec|apply Z.lor_spec]. }
  assert (EE : forall a b : bool, a = b -> (a = true <-> b = true)) by (intros a b ->; tauto).
  assert (Fmin : f = MINIMUM -> forall r, valid t r -> number t r = reduce_seq Z.min (fun i => number t (x i)) n (number t init) -> reduced f t n x init r).
  { intros -> r R1 R2. split; [exact R1|]. pose proof (seq_min (fun i => number t (x i)) n (number t init)) as (A & B & C). cbv zeta in *. rewrite <- R2 in A, B, C.
    split; [|auto]. destruct A as [A|(i & A1 & A2)]; [left; now apply (number_inj t)|right; exists i; split; [exact A1|apply (number_inj t); [exact R1|exact (Hx i A1)|exact A2]]]. }
  assert (Fmax : f = MAXIMUM -> forall r, valid t r -> number t r = reduce_seq Z.max (fun i => number t (x i)) n (number t init) -> reduced f t n x init r).
  { intros -> r R1 R2. split; [exact R1|]. pose proof (seq_max (fun i => number t (x i)) n (number t init)) as (A & B & C). cbv zeta in *. rewrite <- R2 in A, B, C.
    split; [|auto]. destruct A as [A|(i & A1 & A2)]; [left; now apply (number_inj t)|right; exists i; split; [exact A1|apply (number_inj t); [exact R1|exact (Hx i A1)|exact A2]]]. }
  assert (Fand : f = BITWISE_AND -> forall r, valid t r -> (forall j, 0 <= j -> Z.testbit r j = reduce_seq andb (fun i => Z.testbit (x i) j) n (Z.testbit init j)) -> reduced f t n x init r).
  { intros -> r R1 R2. split; [exact R1|]. intros j Hj. rewrite (R2 j Hj). apply seq_all. }
  assert (For : f = BITWISE_OR -> forall r, valid t r -> (forall j, 0 <= j -> Z.testbit r j = reduce_seq orb (fun i => Z.testbit (x i) j) n (Z.testbit init j)) -> reduced f t n x init r).
  { intros -> r R1 R2. split; [exact R1|]. intros j Hj. rewrite (R2 j Hj). apply seq_any. }
  clear Main.
  destruct f; try discriminate Hred.
  - (* ADD *) destruct t; try (apply Sum; [reflexivity|intros u v Hu Hv; apply (Hans u v Hu Hv)|intros r R1 R2; split; [exact R1|exact R2]]).
    apply (Tr orb false); [now left|intros u v Hu Hv; apply (Hans u v Hu Hv)|split; [reflexivity|exact V0]|left; intros []; reflexivity|].
    intros r R1 R2. split; [exact R1|]. rewrite R2. apply seq_any.
  - (* MUL *) destruct t; try (apply Prod; [reflexivity|intros u v Hu Hv; apply (Hans u v Hu Hv)|intros r R1 R2; split; [exact R1|exact R2]]).
    apply (Tr andb true); [now right|intros u v Hu Hv; apply (Hans u v Hu Hv)|split; [reflexivity|exact V1]|left; intros []; reflexivity|].
    intros r R1 R2. split; [exact R1|]. rewrite R2. apply seq_all.
  - (* MINIMUM *) apply (Ex Z.min); [now left| |reflexivity|now apply Fmin]. intros u v Hu Hv. destruct (Hans u v Hu Hv) as [_ Q]. destruct t; exact Q.
  - apply (Ex Z.max); [now right| |reflexivity|now apply Fmax]. intros u v Hu Hv. destruct (Hans u v Hu Hv) as [_ Q]. destruct t; exact Q.
  - (* LOGICAL_AND *) destruct t; try discriminate Hred.
    apply (Tr andb (truth init)); [now right|intros u v Hu Hv; apply (Hans u v Hu Hv)|split; [reflexivity|exact Hi]|now right|].
    intros r R1 R2. split; [exact R1|]. rewrite R2. apply seq_all.
  - (* BITWISE_AND *) apply (Bits Z.land andb); [now left| |reflexivity|now apply Fand]. intros u v Hu Hv. destruct (Hans u v Hu Hv) as [_ Q]. destruct t; exact Q.
  - destruct t; try discriminate Hred.
    apply (Tr orb (truth init)); [now left|intros u v Hu Hv; apply (Hans u v Hu Hv)|split; [reflexivity|exact Hi]|now right|].
    intros r R1 R2. split; [exact R1|]. rewrite R2. apply seq_any.
  - apply (Bits Z.lor orb); [now right| |reflexivity|now apply For]. intros u v Hu Hv. destruct (Hans u v Hu Hv) as [_ Q]. destruct t; exact Q.
Qed.

(** ---------- the table ---------- *)
Lemma rtable_ok f t o ov : rtable f t = Some (o, ov) -> reducible f t = true /\
  forall x y, valid t x -> valid t y -> ov x y = o x y /\ answers f t x y (o x y).
Proof.
  assert (HW : 0 < width t) by apply width_pos.
  assert (HP : 0 < 2 ^ width t) by (apply Z.pow_pos_nonneg; lia).
  assert (Bm : forall z, 0 <= z mod 2 ^ width t < 2 ^ width t) by (intros z; apply Z.mod_pos_bound; exact HP).
  assert (Tb : forall e, table f t = Some e -> o = scalar_of e -> ov = lane_of e -> forall x y, valid t x -> valid t y -> ov x y = o x y /\ answers f t x y (o x y)).
  { intros e He -> -> x y Hx Hy. split; [|now apply (table_is_numpy f t e)]. destruct (table_ok f t e He) as (_ & Q & _). apply Q; now apply valid_pat. }
  intros H. split; [destruct f, t; cbn in H; try discriminate H; reflexivity|]. intros x y Hx Hy.
  destruct f, t; cbn [rtable] in H; try discriminate H; injection H as <- <-; try (now eapply Tb; [reflexivity|reflexivity|reflexivity| |]); clear Tb;
    (split; [|split]); cbn [valid] in *;
    try (destruct Hx as [-> | ->], Hy as [-> | ->]; vm_compute; solve [auto]);
    unfold u_min, u_max, number; cbn [signed];
    repeat match goal with |- context [if ?c then _ else _] => destruct c eqn:? end; lia.
Qed.

Lemma start_value at_ f t op1 m : globals_in at_ m -> ld (isize t) m (start_ptr at_ f (AInt t) op1) = start_of f (ld (isize t) m op1).
Proof.
  intros HG. unfold start_ptr. assert (L : forall g, ld (isize t) m (at_ g) = ld (isize t) (fun a => if (0 <=? a - at_ g) && (a - at_ g <? 16) then nth (Z.to_nat (a - at_ g)) (gbytes g) 0 else 0) (at_ g)).
  { intros g. apply ld_ext; [destruct t; cbn; lia|]. intros a Ha. assert (isize t <= 8) by (destruct t; cbn; lia).
    replace ((0 <=? a - at_ g) && (a - at_ g <? 16)) with true by lia. rewrite <- HG by lia. f_equal. lia. }
  assert (C : forall (h : Z) l, ld (isize t) (fun a => if (0 <=? a - h) && (a - h <? 16) then nth (Z.to_nat (a - h)) l 0 else 0) h = ld (isize t) (fun a => if (0 <=? a) && (a <? 16) then nth (Z.to_nat a) l 0 else 0) 0).
  { intros h l. assert (G : forall q b, ldn q (fun a => if (0 <=? a - h) && (a - h <? 16) then nth (Z.to_nat (a - h)) l 0 else 0) (b + h) = ldn q (fun a => if (0 <=? a) && (a <? 16) then nth (Z.to_nat a) l 0 else 0) b).
    { induction q as [|q IH]; intros b; [reflexivity|]. cbn [ldn]. replace (b + h + 1) with ((b + 1) + h) by lia. rewrite IH. replace (b + h - h) with b by lia. reflexivity. }
    exact (G _ 0). }
  destruct f; cbn [GetReduceStartVal start_of]; try reflexivity; rewrite L, C; destruct t; reflexivity.
Qed.

(** ---------- C78 ---------- *)
(** the buffer of the chunk results (stack bytes of the caller) shares no byte with the accumulator, the start value or the input *)
Definition own_buffer (sz ip2 stride op1 buf pstart n : Z) : Prop :=
  let clear a := a + sz <= buf \/ buf + chunks_of n * sz <= a in
  clear op1 /\ clear pstart /\ forall i, 0 <= i < n -> clear (ip2 + i * stride).
(** the bytes a call may change: the accumulator and, on threads, that buffer *)
Definition touched (sz op1 buf n : Z) (h : how) (x : Z) : Prop :=
  op1 <= x < op1 + sz \/ match h with Alone => False | Threaded _ _ _ => buf <= x < buf + chunks_of n * sz end.

Lemma red_call k op ok sz ip2 stride op1 buf pstart n m : good_sz sz -> ksound k op ok -> (forall x, ok x -> pat sz x) -> 0 <= n ->
  ok (ld sz m op1) -> ok (ld sz m pstart) -> (forall i, 0 <= i < n -> ok (ld sz m (ip2 + i * stride))) ->
  own_buffer sz ip2 stride op1 buf pstart n ->
  (forall h, (h = Alone \/ (exists o ov, k = RFast o ov) \/ stride = sz) ->
    ~ red_faults k sz ip2 stride op1 buf pstart n h m /\
    forall m', red_ends k sz ip2 stride op1 buf pstart n h m m' ->
      ld sz m' op1 = call_value k op sz ip2 stride op1 pstart n m h /\ forall x, ~ touched sz op1 buf n h x -> m' x = m x) /\
  (forall T zz sched, ((exists o ov, k = RFast o ov) \/ stride = sz) -> WORK_ITEM_BIG <= n -> 0 <= T ->
    exists more m', red_ends k sz ip2 stride op1 buf pstart n (Threaded T zz (sched ++ more)) m m').
Proof.
  intros Hg Hk Hp Hn Hi Hs He Hb. split.
  - intros h Hh. destruct h as [|T zz sched].
    + destruct (red_alone k op ok sz ip2 stride op1 buf pstart n m Hg Hk Hp Hn Hi He) as [A B]. split; [exact A|]. intros m' H. destruct (B m' H) as [B1 B2]. split; [exact B1|].
      intros x Hx. apply B2. intros C. apply Hx. left. exact C.
    + assert (Hst : (exists o ov, k = RFast o ov) \/ stride = sz) by (destruct Hh as [Hh|Hh]; [discriminate|exact Hh]).
      destruct (red_threaded k op ok sz Hg Hk Hp ip2 stride op1 buf pstart n m Hn Hi Hs He Hb Hst T zz sched) as [A B]. split; [exact A|]. intros m' H. destruct (B m' H) as [B1 B2]. split; [exact B1|].
      intros x Hx. apply B2. split; intros C; apply Hx; [left; exact C|right; exact C].
  - intros T zz sched Hst Hbig HT. exact (red_can_return k op ok sz Hg Hk Hp ip2 stride op1 buf pstart n m Hn Hi Hs He Hb Hst T zz sched Hbig HT).
Qed.

Lemma start_of_valid f t init : valid t init -> valid t (start_of f init).
Proof. intros H. destruct f; cbn [start_of]; try exact H; destruct t; cbn [valid]; auto; (split; [lia|reflexivity]). Qed.

(** Integers and booleans.  [nop]: NumPy's own operation, used where the table has none or pnumpy is disabled; any that gives the
    documented answers.  Threads with NumPy's loop on a strided array are excluded: the last pass then reads outside the buffer
    (C11_strided_numpy_refuted). *)
Theorem C78_integers :
  forall (f : ufn) (t : ity) (enabled : bool) (nop : Z -> Z -> Z) (at_ : gvar -> Z) (ip2 stride op1 buf n : Z) (m : bytes),
    reducible f t = true ->
    (forall x y, valid t x -> valid t y -> answers f t x y (nop x y)) ->
    0 <= n -> globals_in at_ m ->
    let sz := isize t in let x := fun i => ld sz m (ip2 + i * stride) in
    valid t (ld sz m op1) -> (forall i, 0 <= i < n -> valid t (x i)) ->
    let k := rchosen enabled (rtable f t) nop in
    let pstart := start_ptr at_ f (AInt t) op1 in
    own_buffer sz ip2 stride op1 buf pstart n ->
    (forall h, h = Alone \/ stride = sz \/ (enabled = true /\ rtable f t <> None) ->
      ~ red_faults k sz ip2 stride op1 buf pstart n h m /\
      forall m', red_ends k sz ip2 stride op1 buf pstart n h m m' ->
        reduced f t n x (ld sz m op1) (ld sz m' op1) /\ forall a, ~ touched sz op1 buf n h a -> m' a = m a) /\
    (forall T zz sched, stride = sz \/ (enabled = true /\ rtable f t <> None) -> WORK_ITEM_BIG <= n -> 0 <= T ->
      exists more m', red_ends k sz ip2 stride op1 buf pstart n (Threaded T zz (sched ++ more)) m m').
Proof.
  intros f t enabled nop at_ ip2 stride op1 buf n m Hred Hnop Hn HG sz x Hi Hx k pstart Hb. pose proof (isize_good t) as Hg. fold sz in Hg.
  assert (Es : ld sz m pstart = start_of f (ld sz m op1)) by (apply start_value; exact HG).
  assert (K : exists op, ksound k op (valid t) /\ (forall u v, valid t u -> valid t v -> answers f t u v (op u v))).
  { unfold k, rchosen. destruct (rtable f t) as [[o ov]|] eqn:E.
    - destruct enabled.
      + destruct (rtable_ok f t o ov E) as [_ Q]. exists o. split; [|intros u v Hu Hv; apply (Q u v Hu Hv)]. intros u v Hu Hv. destruct (Q u v Hu Hv) as [Q1 Q2]. repeat split; [exact Q1|]. apply Q2.
      + exists nop. split; [|exact Hnop]. intros u v Hu Hv. split; [reflexivity|]. apply (Hnop u v Hu Hv).
    - exists nop. split; [|exact Hnop]. intros u v Hu Hv. split; [reflexivity|]. apply (Hnop u v Hu Hv). }
  destruct K as (op & Hk & Hans).
  destruct (red_call k op (valid t) sz ip2 stride op1 buf pstart n m Hg Hk (valid_pat t) Hn Hi) as [A B]; [rewrite Es; now apply start_of_valid|exact Hx|exact Hb|].
  assert (Hf : enabled = true /\ rtable f t <> None -> exists o ov, k = RFast o ov).
  { intros [-> Q]. unfold k, rchosen. destruct (rtable f t) as [[o ov]|]; [eauto|congruence]. }
  destruct (int_values f t op Hred Hans k (ld sz m) ip2 stride (ld sz m op1) n Hn Hi Hx) as [V1 V2]. split.
  - intros h Hh. destruct (A h) as [A1 A2]; [tauto|]. split; [exact A1|]. intros m' H. destruct (A2 m' H) as [E1 E2]. split; [|exact E2]. rewrite E1.
    destruct h as [|T zz sched]; cbn [call_value]; [exact V1|]. rewrite Es. apply V2. destruct H as (Hbig & _). change WORK_ITEM_BIG with 65536 in Hbig. lia.
  - intros T zz sched Hst. apply B. tauto.
Qed.
Print Assumptions C78_integers.

(** float64.  Bytes of any kind; the kernel is used (pnumpy enabled). *)
Lemma dtable_sound u o ov : dtable u = Some (o, ov) -> ksound (RFast o ov) (fscalar u DBL) (pat 8).
Proof.
  intros H. assert (Kn : known DBL) by now right. pose proof (fscalar_closed u DBL Kn) as C.
  destruct u; cbn in H; try discriminate H; injection H as <- <-; intros x y Hx Hy; (split; [reflexivity|split; [reflexivity|]]); apply (C x y Hx Hy).
Qed.
Lemma dstart_value at_ u m op1 : globals_in at_ m -> ld 8 m (start_ptr at_ (if match u with FADD => true | _ => false end then ADD else MUL) ADouble op1) = match u with FADD => 0 | _ => 4607182418800017408 end.
Proof.
  intros HG. assert (L : forall g, ld 8 m (at_ g) = ld 8 (fun a => nth (Z.to_nat a) (gbytes g) 0) 0).
  { intros g. unfold ld. assert (G : forall q b, 0 <= b -> b + Z.of_nat q <= 16 -> ldn q m (at_ g + b) = ldn q (fun a => nth (Z.to_nat a) (gbytes g) 0) b).
    { induction q as [|q IH]; intros b Hb Hq; [reflexivity|]. cbn [ldn]. rewrite HG by lia. rewrite <- Z.add_assoc, IH by lia. reflexivity. }
    rewrite <- (G _ 0) by (cbn; lia). now rewrite Z.add_0_r. }
  destruct u; cbn [start_ptr GetReduceStartVal]; rewrite L; vm_compute; reflexivity.
Qed.
Definition ufn_of (u : fop) : ufn := match u with FADD => ADD | _ => MUL end.

Lemma float_call u o ov at_ ip2 stride op1 buf n m : dtable u = Some (o, ov) -> 0 <= n -> bytes_ok m ->
  let k := RFast o ov in let pstart := start_ptr at_ (ufn_of u) ADouble op1 in own_buffer 8 ip2 stride op1 buf pstart n ->
  (forall h, ~ red_faults k 8 ip2 stride op1 buf pstart n h m /\
    forall m', red_ends k 8 ip2 stride op1 buf pstart n h m m' ->
      ld 8 m' op1 = call_value k (fscalar u DBL) 8 ip2 stride op1 pstart n m h /\ forall x, ~ touched 8 op1 buf n h x -> m' x = m x) /\
  (forall T zz sched, WORK_ITEM_BIG <= n -> 0 <= T ->
    exists more m', red_ends k 8 ip2 stride op1 buf pstart n (Threaded T zz (sched ++ more)) m m').
Proof.
  intros Hd Hn Hm k pstart Hb. assert (P : forall a, pat 8 (ld 8 m a)) by (intros a; apply ld_pat; [lia|exact Hm]).
  destruct (red_call k (fscalar u DBL) (pat 8) 8 ip2 stride op1 buf pstart n m) as [A B]; auto; [right; right; right; reflexivity|now apply dtable_sound|].
  split; [intros h; apply A; right; left; unfold k; eauto|]. intros T zz sched. apply B. left. unfold k; eauto.
Qed.

(** np.sum and np.prod: no wild access, no other byte changed, and on threads the same bits whatever the number of workers and
    their interleaving *)
Theorem C78_float64_schedule_free :
  forall (u : fop) (o ov : Z -> Z -> Z) (at_ : gvar -> Z) (ip2 stride op1 buf n : Z) (m : bytes),
    dtable u = Some (o, ov) -> 0 <= n -> bytes_ok m ->
    let k := RFast o ov in let pstart := start_ptr at_ (ufn_of u) ADouble op1 in own_buffer 8 ip2 stride op1 buf pstart n ->
    (forall h, ~ red_faults k 8 ip2 stride op1 buf pstart n h m /\
       forall m', red_ends k 8 ip2 stride op1 buf pstart n h m m' -> forall x, ~ touched 8 op1 buf n h x -> m' x = m x) /\
    (forall T zz sched T' zz' sched' m1 m2,
       red_ends k 8 ip2 stride op1 buf pstart n (Threaded T zz sched) m m1 -> red_ends k 8 ip2 stride op1 buf pstart n (Threaded T' zz' sched') m m2 ->
       ld 8 m1 op1 = ld 8 m2 op1) /\
    (forall T zz sched, WORK_ITEM_BIG <= n -> 0 <= T ->
       exists more m', red_ends k 8 ip2 stride op1 buf pstart n (Threaded T zz (sched ++ more)) m m').
Proof.
  intros u o ov at_ ip2 stride op1 buf n m Hd Hn Hm k pstart Hb. destruct (float_call u o ov at_ ip2 stride op1 buf n m Hd Hn Hm Hb) as [A B]. fold k pstart in A, B. repeat split; [intros C; now apply (A h)| | |exact B].
  - intros m' H x Hx. now apply (A h).
  - intros T zz sched T' zz' sched' m1 m2 H1 H2. rewrite (proj1 (proj2 (A _) m1 H1)), (proj1 (proj2 (A _) m2 H2)). reflexivity.
Qed.
Print Assumptions C78_float64_schedule_free.

Lemma threaded_finish k op sz rd ip2 stride start init n : good_sz sz -> 0 < n ->
  exists p sched, returned (mkRed Z ip2 stride init (Some start) (kval k op sz)) rd n 0 false (fun _ => 0) sched p /\
    finish_kernel (mkRed Z ip2 stride init (Some start) (kval k op sz)) sz n (fun _ => 0) p = threaded_value k op sz rd ip2 stride start init n.
Proof.
  intros Hg Hn. pose proof (good_pos sz Hg). set (r := mkRed Z ip2 stride init (Some start) (kval k op sz)).
  destruct (demo_returned r rd n 0 false (fun _ => 0) ltac:(lia) ltac:(lia)) as (sched & p & Ret). exists p, sched. split; [exact Ret|].
  destruct Ret as [Hr Hp]. pose proof (returned_parts r rd n 0 false ltac:(lia) (fun _ => 0) sched Hr) as Q. rewrite Hp in Q.
  unfold finish_kernel, threaded_value. cbn [r r_kernel r_init]. change (red_chunks n) with (chunks_of n) in *.
  apply kval_local; [exact Hg|unfold chunks_of; change WORK_ITEM_CHUNK with 16384; lia|]. intros w Hw. rewrite Z.add_0_l, Z.div_mul by lia.
  unfold buffer. rewrite Z_mod_mult. destruct (Z.leb_spec 0 (w * sz)); [|nia]. destruct (Z.ltb_spec (w * sz) (chunks_of n * sz)); [|nia]. cbn [andb Z.eqb]. rewrite Z.div_mul by lia.
  rewrite Q by lia. reflexivity.
Qed.

(** np.sum of finite float64: the error bound of C65, now for the bytes in memory *)
Theorem C78_float64_sum :
  forall (o ov : Z -> Z -> Z) (at_ : gvar -> Z) (ip2 stride op1 buf n : Z) (m : bytes),
    dtable FADD = Some (o, ov) -> 0 <= n <= 2 ^ 50 -> bytes_ok m -> globals_in at_ m ->
    let k := RFast o ov in let pstart := start_ptr at_ ADD ADouble op1 in own_buffer 8 ip2 stride op1 buf pstart n ->
    let x := fun i => ld 8 m (ip2 + i * stride) in let init := ld 8 m op1 in
    (forall i, 0 <= i < n -> fin DBL (x i)) -> fin DBL init -> 2 * abs_sum x n init <= max_fin DBL ->
    forall h m', red_ends k 8 ip2 stride op1 buf pstart n h m m' ->
    sum_within (ld 8 m' op1) (exact_sum x n init) (abs_sum x n init)
      (match h with
       | Alone => if stride =? 8 then n / 8 + 11 else n
       | Threaded _ _ _ => (if stride =? 8 then 2059 else 16384) + n / 131072 + 12
       end).
Proof.
  intros o ov at_ ip2 stride op1 buf n m Hd Hn Hm HG k pstart Hb x init Hx Hi Hmax h m' H.
  destruct (float_call FADD o ov at_ ip2 stride op1 buf n m Hd ltac:(lia) Hm Hb) as [A _]. cbn [ufn_of] in A. fold k pstart in A.
  rewrite (proj1 (proj2 (A h) m' H)). assert (E0 : ld 8 m pstart = 0) by exact (dstart_value at_ FADD m op1 HG).
  destruct h as [|T zz sched]; cbn [call_value].
  - exact (C65_unthreaded (ld 8 m) ip2 stride init n Hn Hx Hi Hmax).
  - destruct H as (Hbig & _). change WORK_ITEM_BIG with 65536 in Hbig. rewrite E0.
    destruct (threaded_finish k (f_add DBL) 8 (ld 8 m) ip2 stride 0 init n ltac:(right; right; right; reflexivity) ltac:(lia)) as (p & sched' & R & E).
    change (fscalar FADD DBL) with (f_add DBL). fold init. rewrite <- E. apply (C65_threaded (ld 8 m) ip2 stride init n 0 false (fun _ => 0) (fun _ => 0) sched' p ltac:(lia) ltac:(lia) Hx Hi Hmax). exact R.
Qed.
Print Assumptions C78_float64_sum.

(** ... and exact where every element is a multiple of one power of two and nothing exceeds 53 bits (C66): integers below 2^53 *)
Theorem C78_float64_sum_exact :
  forall (o ov : Z -> Z -> Z) (at_ : gvar -> Z) (ip2 stride op1 buf n : Z) (m : bytes) (j : Z) (c : Z -> Z) (c0 : Z),
    dtable FADD = Some (o, ov) -> 0 <= n -> bytes_ok m -> globals_in at_ m ->
    let k := RFast o ov in let pstart := start_ptr at_ ADD ADouble op1 in own_buffer 8 ip2 stride op1 buf pstart n ->
    multiples j (fun i => ld 8 m (ip2 + i * stride)) n (ld 8 m op1) c c0 ->
    forall h m', red_ends k 8 ip2 stride op1 buf pstart n h m m' ->
    fin DBL (ld 8 m' op1) /\ fval DBL (ld 8 m' op1) = (c0 + sum_of c n) * 2 ^ j.
Proof.
  intros o ov at_ ip2 stride op1 buf n m j c c0 Hd Hn Hm HG k pstart Hb Hmul h m' H.
  destruct (float_call FADD o ov at_ ip2 stride op1 buf n m Hd ltac:(lia) Hm Hb) as [A _]. cbn [ufn_of] in A. fold k pstart in A.
  rewrite (proj1 (proj2 (A h) m' H)). assert (E0 : ld 8 m pstart = 0) by exact (dstart_value at_ FADD m op1 HG).
  destruct h as [|T zz sched]; cbn [call_value].
  - exact (C66_unthreaded j (ld 8 m) ip2 stride (ld 8 m op1) n c c0 Hn Hmul).
  - destruct H as (Hbig & _). change WORK_ITEM_BIG with 65536 in Hbig. rewrite E0.
    destruct (threaded_finish k (f_add DBL) 8 (ld 8 m) ip2 stride 0 (ld 8 m op1) n ltac:(right; right; right; reflexivity) ltac:(lia)) as (p & sched' & R & E).
    change (fscalar FADD DBL) with (f_add DBL). rewrite <- E. exact (C66_threaded j (ld 8 m) ip2 stride (ld 8 m op1) n 0 false (fun _ => 0) (fun _ => 0) sched' p c c0 ltac:(lia) ltac:(lia) Hmul R).
Qed.
Print Assumptions C78_float64_sum_exact.

(** The hypotheses are met, and a threaded np.min of 70000 int32 does end, with the minimum in place. *)
Definition demo_at (g : gvar) : Z := match g with g_startval_zero => 1000000 | g_startval_one => 1000016 | g_startval_one_double => 1000032 end.
Definition demo_mem (a : Z) : Z :=
  if (1000000 <=? a) && (a <? 1000016) then nth (Z.to_nat (a - 1000000)) (gbytes g_startval_zero) 0
  else if (1000016 <=? a) && (a <? 1000032) then nth (Z.to_nat (a - 1000016)) (gbytes g_startval_one) 0
  else if (1000032 <=? a) && (a <? 1000048) then nth (Z.to_nat (a - 1000032)) (gbytes g_startval_one_double) 0 else 5.
Example C78_nonvacuous :
  globals_in demo_at demo_mem /\ bytes_ok demo_mem /\
  own_buffer 4 0 4 600000 700000 (start_ptr demo_at MINIMUM (AInt INT32) 600000) 70000 /\
  own_buffer 8 0 4 600000 700000 (start_ptr demo_at ADD ADouble 600000) 70000 /\
  (exists sched m', red_ends (rchosen true (rtable MINIMUM INT32) (s_min 32)) 4 0 4 600000 700000 600000 70000 (Threaded 3 true sched) demo_mem m' /\
     ld 4 m' 600000 = 84215045).
Proof.
  assert (G : globals_in demo_at demo_mem).
  { intros g k Hk. unfold demo_mem. destruct g; cbn [demo_at].
    - replace ((1000000 <=? 1000000 + k) && (1000000 + k <? 1000016)) with true by lia. do 2 f_equal. lia.
    - replace ((1000000 <=? 1000016 + k) && (1000016 + k <? 1000016)) with false by lia. replace ((1000016 <=? 1000016 + k) && (1000016 + k <? 1000032)) with true by lia. do 2 f_equal. lia.
    - replace ((1000000 <=? 1000032 + k) && (1000032 + k <? 1000016)) with false by lia. replace ((1000016 <=? 1000032 + k) && (1000032 + k <? 1000032)) with false by lia.
      replace ((1000032 <=? 1000032 + k) && (1000032 + k <? 1000048)) with true by lia. do 2 f_equal. lia. }
  assert (O4 : own_buffer 4 0 4 600000 700000 600000 70000) by (unfold own_buffer; change (chunks_of 70000) with 5; repeat split; try lia; intros; lia).
  assert (L : forall a, 0 <= a <= 999000 -> ld 4 demo_mem a = 84215045).
  { intros a Ha. transitivity (ld 4 (fun _ => 5) a); [|vm_compute; reflexivity]. apply ld_ext; [lia|]. intros b Hb. unfold demo_mem.
    replace ((1000000 <=? b) && (b <? 1000016)) with false by lia. replace ((1000016 <=? b) && (b <? 1000032)) with false by lia. replace ((1000032 <=? b) && (b <? 1000048)) with false by lia. reflexivity. }
  split; [exact G|]. split.
  { intros a. unfold demo_mem. repeat match goal with |- context [if ?c then _ else _] => destruct c end; try lia.
    all: match goal with |- context [nth ?q ?l 0] => destruct (nth_in_or_default q l 0) as [Q|Q]; [generalize dependent (nth q l 0); intros v Q; cbn in Q; intuition lia|rewrite Q; lia] end. }
  split; [exact O4|]. split.
  { unfold own_buffer. change (chunks_of 70000) with 5. cbn [start_ptr GetReduceStartVal demo_at]. repeat split; try lia; intros; lia. }
  assert (V : forall a, 0 <= a <= 999000 -> valid INT32 (ld 4 demo_mem a)) by (intros a Ha; rewrite L by exact Ha; cbn [valid]; change (width INT32) with 32; lia).
  destruct (C78_integers MINIMUM INT32 true (s_min 32) demo_at 0 4 600000 700000 70000 demo_mem eq_refl) as [A B].
  - intros x y Hx Hy. exact (proj2 (proj2 (rtable_ok MINIMUM INT32 _ _ eq_refl) x y Hx Hy)).
  - lia.
  - exact G.
  - apply V. lia.
  - intros i Hi. apply V. lia.
  - exact O4.
  - destruct (B 3 true [] (or_introl eq_refl)) as (more & m' & E); [change WORK_ITEM_BIG with 65536; lia|lia|]. exists ([] ++ more), m'. split; [exact E|].
    destruct (proj2 (A _ (or_intror (or_introl eq_refl))) m' E) as [[_ [[Q|(i & Hi & Q)] _]] _]; cbn [isize] in Q; rewrite Q; apply L; lia.
Qed.
