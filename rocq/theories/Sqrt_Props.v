(** Sqrt_Props.v - C76: np.sqrt is the correctly rounded square root, on one thread and on many. *)
From Coq Require Import Reals Lra.
From Verif Require Import Base Threads_Model Threads_Proofs Jobs_Model Sort_Model Kernel_Model Kernel_Proofs Kernel_Props
  Float_Model Compare_Model Compare_Proofs Compare_Props Unary_Model Unary_Proofs Unary_Props UnaryVal_Props Round_Model Round_Props Arith_Model Arith_Props
  Ufunc_Model Ufunc_Proofs Ufunc_Kernel_Proofs UfuncUn_Model UfuncUn_Proofs UfuncUn_Props Sqrt_Model.

(** ---------- specification ---------- *)
(** the real number a finite pattern stands for *)
Definition real (f : fmt) (x : Z) : R := (IZR (fval f x) / IZR (one_val f))%R.
(** r is the IEEE-754 square root of x: NaN for NaN and for negative numbers, the zero itself for zeros, infinity for infinity;
    else the finite number nearest to the real square root, the even one on a tie *)
Definition is_root (f : fmt) (x r : Z) : Prop :=
  (fnan f x -> fnan f r) /\
  (zero_p f x -> r = x) /\
  (~ fnan f x /\ ~ zero_p f x /\ neg_p f x -> fnan f r) /\
  (infinite_p f x /\ ~ neg_p f x -> r = x) /\
  (finite_p f x /\ ~ neg_p f x ->
     finite_p f r /\ ~ neg_p f r /\
     forall z, 0 <= z < 2 ^ fwidth f -> finite_p f z -> ~ neg_p f z -> z <> r ->
       let d y := Rabs (real f y - sqrt (real f x)) in
       (d r < d z)%R \/ (d r = d z /\ Z.even r = true)).

(** ---------- proof ---------- *)
(** nearest to (2s + sticky)/4 is nearest to the root itself: every midpoint of two numbers is a multiple of half a unit *)
Section Root.
  Variables v4 : Z.
  Hypothesis Hv : 0 <= v4.
  Let s := Z.sqrt v4.
  Let N := 2 * s + (if s * s =? v4 then 0 else 1).
  Let rt := (sqrt (IZR v4) / 2)%R.
  Lemma root_bounds : s * s = v4 /\ (2 * rt = IZR s)%R \/ s * s < v4 /\ (IZR s < 2 * rt < IZR (s + 1))%R.
  Proof.
    destruct (Z.sqrt_spec v4 Hv) as [L U]. pose proof (Z.sqrt_nonneg v4) as P. fold s in L, U, P.
    assert (E : (2 * rt)%R = sqrt (IZR v4)) by (unfold rt; lra). rewrite E.
    assert (P' : (0 <= IZR s)%R) by (apply IZR_le; exact P).
    destruct (Z.eq_dec (s * s) v4) as [Q|Q].
    - left. split; [exact Q|]. rewrite <- Q, mult_IZR. now apply sqrt_square.
    - right. split; [lia|]. split.
      + rewrite <- (sqrt_square (IZR s)) by exact P'. apply sqrt_lt_1_alt. split; [nra|]. rewrite <- mult_IZR. apply IZR_lt. lia.
      + rewrite <- (sqrt_square (IZR (s + 1))) by (rewrite plus_IZR; lra). apply sqrt_lt_1_alt. split; [apply (IZR_le 0); exact Hv|]. rewrite <- mult_IZR. apply IZR_lt. lia.
  Qed.
  Lemma nearest_root a b :
    (Z.abs (a * 4 - N) < Z.abs (b * 4 - N) -> (Rabs (IZR a - rt) < Rabs (IZR b - rt))%R) /\
    (Z.abs (a * 4 - N) = Z.abs (b * 4 - N) -> (Rabs (IZR a - rt) = Rabs (IZR b - rt))%R).
  Proof.
    destruct root_bounds as [[Q E]|[Q [L U]]]; unfold N.
    - assert (Et : (s * s =? v4) = true) by now apply Z.eqb_eq. rewrite Et.
      assert (X : forall z, (Rabs (IZR z - rt) = IZR (Z.abs (z * 4 - (2 * s + 0))) / 4)%R).
      { intros z. rewrite abs_IZR, minus_IZR, plus_IZR, !mult_IZR. rewrite <- E.
        replace (IZR z * 4 - (2 * (2 * rt) + 0))%R with (4 * (IZR z - rt))%R by lra. rewrite Rabs_mult, (Rabs_right 4) by lra. lra. }
      rewrite !X. split; intros H; [apply IZR_lt in H; lra|rewrite H; reflexivity].
    - assert (Et : (s * s =? v4) = false) by (apply Z.eqb_neq; lia). rewrite Et.
      rewrite plus_IZR in U. split; intros H.
      + assert (C : a < b /\ s + 1 <= a + b \/ b < a /\ a + b <= s) by lia.
        destruct C as [[C1 C2]|[C1 C2]]; apply IZR_lt in C1; apply IZR_le in C2; rewrite ?plus_IZR in C2; unfold Rabs; repeat destruct Rcase_abs; lra.
      + assert (C : a = b) by lia. now rewrite C.
  Qed.
End Root.

Section Sqrt.
  Variable f : fmt.
  Hypothesis K : known f.
  Lemma fin_small z : 0 <= z < 2 ^ fwidth f -> ~ neg_p f z -> finite_p f z -> 0 <= z < finf f /\ fmag f z = z /\ fval f z = fabsval f z.
  Proof.
    intros Hz Hn Hf. destruct (classes f K z) as (_ & _ & _ & N & F & _). apply F in Hf as [F1 F2]. unfold is_nan, is_inf in F1, F2.
    destruct (mag_cases f K z Hz) as [(A & M & L)|(A & M & L)]; [|unfold neg_p in Hn; lia].
    rewrite M in F1, F2. split; [lia|]. split; [exact M|]. unfold fval. destruct (fneg f z) eqn:E; [|reflexivity]. destruct Hn. apply N. reflexivity.
  Qed.
  Lemma sqrt_ok x : 0 <= x < 2 ^ fwidth f -> 0 <= f_sqrt f x < 2 ^ fwidth f /\ is_root f x (f_sqrt f x).
  Proof.
    intros Hx. destruct (classes f K x) as (Nan & Inf & Zer & Neg & Fin & X1 & X2). destruct (qnan_ok f K) as [Q1 Q2].
    unfold f_sqrt, is_root.
    destruct (is_nan f x) eqn:E1.
    { split; [exact Q1|]. assert (fnan f x) by tauto. assert (~ zero_p f x) by (rewrite <- Zer; intros C; destruct (X2 C); discriminate).
      assert (~ infinite_p f x) by (rewrite <- Inf, X1; [discriminate|reflexivity]). assert (~ finite_p f x) by (rewrite Fin; intros [C _]; discriminate). tauto. }
    assert (NN : ~ fnan f x) by (rewrite <- Nan; discriminate).
    destruct (is_zero f x) eqn:E2.
    { split; [exact Hx|]. assert (zero_p f x) by tauto. destruct (X2 eq_refl) as [_ E3].
      split; [tauto|]. split; [tauto|]. split; [tauto|]. split; [tauto|]. intros [F N]. split; [exact F|]. split; [exact N|].
      intros z Hz Fz Nz Hne. cbv zeta. destruct (fin_small x Hx N F) as (A1 & A2 & A3). destruct (fin_small z Hz Nz Fz) as (B1 & B2 & B3).
      assert (x = 0) by (rewrite <- A2; assumption). subst x. left.
      destruct (uv f K) as [_ U]. apply IZR_lt in U.
      assert (Zv : fabsval f 0 = 0) by (rewrite <- (mv_small f) by (destruct (inf_bound f K) as [[? ?] _]; lia); apply mv_0, K).
      assert (Pv : 0 < fabsval f z).
      { rewrite <- Zv, <- !(mv_small f) by (destruct (inf_bound f K) as [[? ?] _]; lia). apply mv_mono; [exact K|lia]. }
      unfold real. rewrite A3, B3, Zv. replace (0 / IZR (one_val f))%R with 0%R by (field; lra). rewrite sqrt_0.
      rewrite !Rminus_0_r, Rabs_R0. apply Rabs_pos_lt. apply IZR_lt in Pv. apply Rgt_not_eq, Rdiv_lt_0_compat; lra. }
    assert (NZ : ~ zero_p f x) by (rewrite <- Zer; discriminate).
    destruct (fneg f x) eqn:E3.
    { split; [exact Q1|]. assert (neg_p f x) by tauto. tauto. }
    assert (NG : ~ neg_p f x) by (rewrite <- Neg; discriminate).
    destruct (is_inf f x) eqn:E4.
    { split; [exact Hx|]. assert (~ finite_p f x) by (rewrite Fin; intros [_ C]; discriminate). tauto. }
    assert (FX : finite_p f x) by (apply Fin; auto). assert (NI : ~ infinite_p f x) by (rewrite <- Inf; discriminate).
    destruct (fin_small x Hx NG FX) as (A1 & A2 & A3). destruct (uv f K) as [U1 U2].
    rewrite mv_mag, U1. set (M := fabsval f x). set (U := one_val f) in *. set (v4 := 4 * (M * U)). set (s := Z.sqrt v4).
    set (N := 2 * s + (if s * s =? v4 then 0 else 1)).
    assert (Mp : 0 < M).
    { unfold M. assert (x <> 0) by (intros ->; apply NZ; exact A2). destruct (inf_bound f K) as [[? ?] _].
      rewrite <- (mv_small f) by lia. rewrite <- (mv_0 f K). apply mv_mono; [exact K|lia]. }
    assert (V0 : 0 <= v4) by (unfold v4; nia). pose proof (Z.sqrt_nonneg v4) as S0. fold s in S0.
    assert (HN : 0 <= N) by (unfold N; destruct (s * s =? v4); lia).
    pose proof (rnd_ok f K N 4 HN ltac:(lia)) as [G0 G1]. pose proof (rnd_range f K N 4 HN ltac:(lia)) as G2. set (g := rnd_mag f N 4) in *.
    destruct (put_ok f K false g G2) as (P1 & P2 & P3). unfold put_sign in *. rewrite Z.add_0_l in *.
    (* the root is at most the larger of M and U, so it does not round to infinity *)
    set (rt := (sqrt (IZR v4) / 2)%R).
    assert (NR : forall z, 0 <= z <= finf f -> z <> g -> (Rabs (IZR (fabsval f g) - rt) < Rabs (IZR (fabsval f z) - rt))%R \/ (Rabs (IZR (fabsval f g) - rt) = Rabs (IZR (fabsval f z) - rt))%R /\ Z.even g = true).
    { intros z Hz Hne. destruct (nearest_root v4 V0 (fabsval f g) (fabsval f z)) as [L1 L2]. destruct (G1 z Hz Hne) as [H|[H H']]; [left; apply L1, H|right; split; [apply L2, H|exact H']]. }
    assert (RTle : (0 <= rt <= IZR (Z.max M U))%R).
    { unfold rt. pose proof (sqrt_pos (IZR v4)). split; [lra|]. replace (IZR (Z.max M U)) with (IZR (2 * Z.max M U) / 2)%R by (rewrite mult_IZR; lra).
      apply Rmult_le_compat_r; [lra|]. rewrite <- (sqrt_square (IZR (2 * Z.max M U))) by (apply (IZR_le 0); lia). apply sqrt_le_1_alt. rewrite <- mult_IZR. apply IZR_le. unfold v4. nia. }
    assert (Gfin : g < finf f).
    { destruct (Z.eq_dec g (finf f)) as [Eg|]; [|lia]. exfalso.
      assert (O : 0 <= f_one f < finf f /\ fabsval f (f_one f) = U) by (destruct K as [K'|K']; unfold U; rewrite K'; vm_compute; repeat split; discriminate).
      assert (W : exists w, 0 <= w < finf f /\ fabsval f w = Z.max M U).
      { destruct (Z.max_spec M U) as [[_ ->]|[_ ->]]; [exists (f_one f)|exists x; split; [lia|reflexivity]]. tauto. }
      destruct W as (w & W1 & W2). destruct (inf_bound f K) as [[I1 I2] _].
      assert (LT : fabsval f w < fabsval f g) by (rewrite <- !(mv_small f) by lia; apply mv_mono; [exact K|lia]).
      rewrite W2 in LT. apply IZR_lt in LT.
      destruct (NR w ltac:(lia) ltac:(lia)) as [H|[H _]]; rewrite W2 in H; revert H; unfold Rabs; repeat destruct Rcase_abs; lra. }
    split; [exact P1|]. split; [tauto|]. split; [tauto|]. split; [tauto|]. split; [tauto|]. intros _.
    assert (NGg : ~ neg_p f g) by (rewrite P3; discriminate).
    assert (FG : finite_p f g).
    { destruct (classes f K g) as (_ & _ & _ & _ & Fg & _). apply Fg. unfold is_nan, is_inf. rewrite P2. lia. }
    split; [exact FG|]. split; [exact NGg|]. intros z Hz Fz Nz Hne. cbv zeta.
    destruct (fin_small z Hz Nz Fz) as (B1 & B2 & B3). destruct (fin_small g P1 NGg FG) as (_ & _ & B4).
    assert (SC : sqrt (real f x) = (rt / IZR U)%R).
    { unfold real. rewrite A3. fold M U. apply IZR_lt in U2, Mp. unfold rt.
      apply sqrt_lem_1; [apply Rlt_le, Rdiv_lt_0_compat; lra| |].
      - pose proof (sqrt_pos (IZR v4)). apply Rmult_le_pos; [lra|]. left. apply Rinv_0_lt_compat. lra.
      - assert (SQ : (sqrt (IZR v4) * sqrt (IZR v4) = IZR v4)%R) by (apply sqrt_sqrt, (IZR_le 0), V0).
        replace (sqrt (IZR v4) / 2 / IZR U * (sqrt (IZR v4) / 2 / IZR U))%R with (sqrt (IZR v4) * sqrt (IZR v4) / (4 * IZR U * IZR U))%R by (field; lra).
        rewrite SQ. unfold v4. rewrite !mult_IZR. field. lra. }
    assert (SH : forall y, fval f y = fabsval f y -> Rabs (real f y - sqrt (real f x)) = (Rabs (IZR (fabsval f y) - rt) / IZR U)%R).
    { intros y Ey. rewrite SC. unfold real. rewrite Ey. fold U. apply IZR_lt in U2. clearbody U.
      replace (IZR (fabsval f y) / IZR U - rt / IZR U)%R with ((IZR (fabsval f y) - rt) * / IZR U)%R by (field; lra).
      rewrite Rabs_mult. rewrite (Rabs_right (/ IZR U)); [reflexivity|]. apply Rle_ge. left. apply Rinv_0_lt_compat, U2. }
    rewrite (SH g B4), (SH z B3). apply IZR_lt in U2. apply Rinv_0_lt_compat in U2.
    destruct (NR z ltac:(lia) Hne) as [H|[H H']].
    - left. apply Rmult_lt_compat_r; assumption.
    - right. split; [rewrite H; reflexivity|exact H'].
  Qed.
End Sqrt.

(** C76.  Every length, stride and content of a float32 or float64 array; pnumpy's loop or NumPy's ([nop], any correctly rounded root);
    alone or on any number of workers in any interleaving of byte accesses: no fault, every output is the correctly rounded root of the
    ORIGINAL element at its position, no other byte changes, and a threaded call can always still be brought to return. *)
Theorem C76_sqrt :
  forall (f : fmt) (enabled : bool) (nop : Z -> Z) (a out n s so : Z) (m : bytes),
    known f ->
    (forall x, pat (fsize f) x -> pat (fsize f) (nop x) /\ is_root f x (nop x)) ->
    0 <= n -> bytes_ok m -> separate_un (fsize f) (fsize f) a s out so n ->
    let k := uchosen enabled (kGetSqrtOp f) so (fsize f) (fsize f) nop in
    (forall h, ~ un_faults k a out n s so h m) /\
    (forall h m', un_ends k a out n s so h m m' ->
      (forall i, 0 <= i < n -> is_root f (ld (fsize f) m (a + i * s)) (ld (fsize f) m' (out + i * so))) /\
      (forall b, (forall i, 0 <= i < n -> ~ (out + i * so <= b < out + i * so + fsize f)) -> m' b = m b)) /\
    (forall T zz sched, WORK_ITEM_BIG <= n -> 0 <= T -> exists more m', un_ends k a out n s so (Threaded T zz (sched ++ more)) m m').
Proof.
  intros f enabled nop a out n s so m K Hnop Hn Hm Hsc k.
  assert (Hs : 0 < fsize f) by (destruct K as [-> | ->]; reflexivity).
  assert (GS : good_sz (fsize f)) by (unfold good_sz; destruct K as [-> | ->]; [change (fsize FLT) with 4|change (fsize DBL) with 8]; lia).
  assert (CL : forall x, pat (fsize f) x -> pat (fsize f) (f_sqrt f x)) by (intros x; rewrite !fpat by exact K; intros Hx; apply sqrt_ok; assumption).
  assert (Hf : forall k, kGetSqrtOp f = Some k -> uregular k /\ kin k <= fsize f /\ kout k = fsize f).
  { intros k0 E0. injection E0 as <-. change (fwidth f / 8) with (fsize f). cbn [uregular kin kout]. split; [auto|]. split; [lia|reflexivity]. }
  destruct (chosen_call _ (fsize f) (fsize f) nop Hs Hs Hf (fun x Hx => proj1 (Hnop x Hx)) enabled a out n s so m Hn Hm Hsc) as (C1 & C2 & C3).
  fold k in C1, C2, C3. split; [exact C1|]. split; [|exact C3].
  intros h m' H. destruct (C2 h m' H) as [D1 D2]. split; [|exact D2]. intros i Hi. rewrite D1 by exact Hi.
  assert (LP : pat (fsize f) (ld (fsize f) m (a + i * s))) by (apply ld_pat; [lia|exact Hm]).
  assert (NA : is_root f (ld (fsize f) m (a + i * s)) (ld (fsize f) (numpy_loop (fsize f) (fsize f) nop a out n s so m) (out + i * so))).
  { destruct (loop_outputs (fsize f) (fsize f) nop a out n s so m ltac:(lia) ltac:(lia) (fun x Hx => proj1 (Hnop x Hx)) Hn Hm Hsc) as [L1 _].
    rewrite L1 by exact Hi. apply Hnop, LP. }
  unfold k, uchosen. cbn [kGetSqrtOp]. destruct enabled; cbn [andb]; [|exact NA].
  destruct (Z.eqb_spec so 0) as [E0|E0]; cbn [negb]; [exact NA|].
  cbn [urun]. change (fwidth f / 8) with (fsize f).
  destruct (C14_unary (fsize f) (f_sqrt f) (f_sqrt f) a out n s so m) as [D _]; try assumption; try reflexivity.
  - exact (sep_outs _ _ _ _ _ _ _ Hsc).
  - exact (sep_clobber _ _ _ _ _ _ Hsc).
  - rewrite D by exact Hi. apply sqrt_ok; [exact K|]. apply fpat; assumption.
Qed.
Print Assumptions C76_sqrt.

(** the specification determines the answer (up to which NaN it is) *)
Theorem C76_root_unique : forall f x r r', known f -> 0 <= x < 2 ^ fwidth f -> 0 <= r < 2 ^ fwidth f -> 0 <= r' < 2 ^ fwidth f ->
  is_root f x r -> is_root f x r' -> r = r' \/ (fnan f r /\ fnan f r').
Proof.
  intros f x r r' K Hx Hr Hr' (A1 & A2 & A3 & A4 & A5) (B1 & B2 & B3 & B4 & B5).
  destruct (classes f K x) as (Nan & Inf & Zer & Neg & Fin & X1 & X2).
  destruct (is_nan f x) eqn:E1; [right; split; tauto|].
  destruct (is_zero f x) eqn:E2; [left; rewrite A2, B2 by tauto; reflexivity|].
  assert (~ fnan f x /\ ~ zero_p f x) by (rewrite <- Nan, <- Zer; split; discriminate).
  destruct (fneg f x) eqn:E3; [right; split; [apply A3|apply B3]; tauto|].
  assert (~ neg_p f x) by (rewrite <- Neg; discriminate).
  destruct (is_inf f x) eqn:E4; [left; rewrite A4, B4 by tauto; reflexivity|].
  assert (F : finite_p f x) by (apply Fin; auto).
  destruct (A5 (conj F H0)) as (F1 & N1 & P1). destruct (B5 (conj F H0)) as (F2 & N2 & P2).
  destruct (Z.eq_dec r r') as [|Hne]; [left; assumption|]. exfalso.
  assert (W : forall u v, 0 <= u < 2 ^ fwidth f -> 0 <= v < 2 ^ fwidth f -> finite_p f u -> finite_p f v -> ~ neg_p f u -> ~ neg_p f v -> u < v -> Z.even u = true -> Z.even v = true ->
    Rabs (real f u - sqrt (real f x)) = Rabs (real f v - sqrt (real f x)) ->
    exists w, 0 <= w < 2 ^ fwidth f /\ finite_p f w /\ ~ neg_p f w /\ w <> u /\ (Rabs (real f w - sqrt (real f x)) < Rabs (real f u - sqrt (real f x)))%R).
  { intros u v Hu Hv Fu Fv Nu Nv Lt Eu Ev Q. destruct (fin_small f K u Hu Nu Fu) as (U1 & U2 & U3). destruct (fin_small f K v Hv Nv Fv) as (V1 & V2 & V3).
    assert (u + 1 < v) by (destruct (Z.eq_dec v (u + 1)) as [->|]; [rewrite Z.even_add, Eu in Ev; discriminate Ev|lia]).
    destruct (inf_bound f K) as [[I1 I2] _]. destruct (put_ok f K false (u + 1) ltac:(lia)) as (R1 & R2 & R3). unfold put_sign in R1, R2, R3. rewrite Z.add_0_l in R1, R2, R3.
    assert (Nw : ~ neg_p f (u + 1)) by (rewrite R3; discriminate).
    assert (Fw : finite_p f (u + 1)) by (destruct (classes f K (u + 1)) as (_ & _ & _ & _ & Fg & _); apply Fg; unfold is_nan, is_inf; rewrite R2; lia).
    destruct (fin_small f K (u + 1) R1 Nw Fw) as (W1 & W2 & W3).
    assert (L1 : fabsval f u < fabsval f (u + 1)) by (rewrite <- !(mv_small f) by lia; apply mv_mono; [exact K|lia]).
    assert (L2 : fabsval f (u + 1) < fabsval f v) by (rewrite <- !(mv_small f) by lia; apply mv_mono; [exact K|lia]).
    exists (u + 1). repeat (split; [assumption || lia|]). destruct (uv f K) as [_ O]. apply IZR_lt in O, L1, L2. apply Rinv_0_lt_compat in O.
    apply (Rmult_lt_compat_r _ _ _ O) in L1. apply (Rmult_lt_compat_r _ _ _ O) in L2. revert Q L1 L2. unfold real, Rdiv. rewrite U3, V3, W3. unfold Rabs. repeat destruct Rcase_abs; lra. }
  destruct (P1 r' Hr' F2 N2 (not_eq_sym Hne)) as [Q1|[Q1 Q1']]; destruct (P2 r Hr F1 N1 Hne) as [Q2|[Q2 Q2']]; cbv zeta in *; try lra.
  destruct (Z.lt_total r r') as [L|[L|L]]; [|contradiction|].
  - destruct (W r r' Hr Hr' F1 F2 N1 N2 L Q1' Q2' Q1) as (w & Hw & Fw & Nw & Hd & C). destruct (P1 w Hw Fw Nw Hd) as [D|[D _]]; lra.
  - destruct (W r' r Hr' Hr F2 F1 N2 N1 L Q2' Q1' Q2) as (w & Hw & Fw & Nw & Hd & C). destruct (P2 w Hw Fw Nw Hd) as [D|[D _]]; lra.
Qed.
Print Assumptions C76_root_unique.

(** sqrt(2.0f) = 0x3FB504F3, sqrt(4.0) = 2.0, sqrt(-0.0) = -0.0, sqrt(the smallest float64) = 2^-537; np.sqrt of 100000 float64 in place
    on three workers can return *)
Example C76_nonvacuous :
  f_sqrt FLT 1073741824 = 1068827891 /\ f_sqrt DBL 4616189618054758400 = 4611686018427387904 /\ f_sqrt DBL (2 ^ 63) = 2 ^ 63 /\
  f_sqrt DBL 1 = (1023 - 537) * 2 ^ 52 /\
  exists sched m', un_ends (uchosen true (kGetSqrtOp DBL) 8 8 8 (f_sqrt DBL)) 4096 4096 100000 8 8 (Threaded 3 true sched) (fun _ => 7) m'.
Proof.
  repeat (split; [vm_compute; reflexivity|]).
  assert (K : known DBL) by now right.
  assert (S1 : separate_un 8 8 4096 8 4096 8 100000) by (intros i j; intros; unfold away; lia).
  assert (B : bytes_ok (fun _ => 7)) by (intros x; lia).
  destruct (C76_sqrt DBL true (f_sqrt DBL) 4096 4096 100000 8 8 (fun _ => 7) K) as (_ & _ & H); [|lia|exact B|exact S1|].
  - intros x. change (fsize DBL) with 8. change 8 with (fsize DBL). rewrite !fpat by exact K. intros Hx. destruct (sqrt_ok DBL K x Hx). auto.
  - destruct (H 3 true [] ltac:(unfold WORK_ITEM_BIG, WORK_ITEM_CHUNK; lia) ltac:(lia)) as (more & m' & Hc). exists more, m'. exact Hc.
Qed.
