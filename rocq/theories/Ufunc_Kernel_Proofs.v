(** Ufunc_Kernel_Proofs.v - the byte programs of Ufunc_Model.v run alone do what Kernel_Model.v's functions say, and
    touch only the elements of the arrays. *)
From Verif Require Import Base Threads_Model Threads_Proofs Jobs_Model Sort_Model Kernel_Model Kernel_Proofs Arith_Model Ufunc_Model Ufunc_Proofs.

Lemma runs_assoc {A B C} R W (p : bprog A) (f : A -> bprog B) (g : B -> bprog C) : forall m m',
  runs R W (bind (bind p f) g) m m' <-> runs R W (bind p (fun a => bind (f a) g)) m m'.
Proof.
  induction p as [a|x k IH|x v k IH| |]; intros m m'; cbn [bind runs]; try reflexivity.
  - rewrite IH. reflexivity.
  - rewrite IH. reflexivity.
Qed.
Lemma runs_bind_ret {A B} R W (p : bprog A) (b : B) : forall m m', runs R W (bind p (fun _ => Ret b)) m m' -> runs R W p m m'.
Proof.
  induction p as [a|x k IH|x v k IH| |]; intros m m'; cbn [bind runs]; auto.
  - intros [H1 H2]. auto.
  - intros [H1 H2]. auto.
Qed.

Definition cover (P : Z -> Prop) (a n : Z) : Prop := forall x, a <= x < a + n -> P x.
Lemma cover_sub P a n b k : cover P a n -> a <= b -> b + k <= a + n -> cover P b k.
Proof. intros H H1 H2 x Hx. apply H. lia. Qed.

Lemma lanes2_length f : forall x y, (length (lanes2 f x y) <= length x)%nat.
Proof. induction x as [|a x IH]; intros [|b y]; cbn; try lia. specialize (IH y). lia. Qed.

Section Foot.
  Variables (R W : Z -> Prop).
  Notation runs := (runs R W).

  Lemma runs_ldp {B} k : forall a (f : Z -> bprog B) m m', cover R a (Z.of_nat k) ->
    runs (f (ldn k m a)) m m' -> runs (bind (ldp k a) f) m m'.
  Proof.
    induction k as [|k IH]; intros a f m m' Hc H; cbn [ldp ldn bind] in *; [exact H|].
    cbn [Ufunc_Proofs.runs]. split; [apply Hc; lia|]. rewrite runs_assoc. apply IH.
    - eapply cover_sub; [exact Hc| |]; lia.
    - cbn [bind]. exact H.
  Qed.
  Lemma runs_stp {B} k : forall a v (f : bprog B) m m', cover W a (Z.of_nat k) ->
    runs f (stn k m a v) m' -> runs (stp k a v ;; f) m m'.
  Proof.
    induction k as [|k IH]; intros a v f m m' Hc H; cbn [stp stn bind] in *; [exact H|].
    cbn [Ufunc_Proofs.runs]. split; [apply Hc; lia|]. apply IH; [|exact H]. eapply cover_sub; [exact Hc| |]; lia.
  Qed.
  Lemma runs_pld {B} sz a (f : Z -> bprog B) m m' : 0 <= sz -> cover R a sz -> runs (f (ld sz m a)) m m' -> runs (bind (pld sz a) f) m m'.
  Proof. intros Hs Hc H. unfold pld. apply runs_ldp; [|exact H]. rewrite Z2Nat.id by lia. exact Hc. Qed.
  Lemma runs_pst {B} sz a v (f : bprog B) m m' : 0 <= sz -> cover W a sz -> runs f (st sz m a v) m' -> runs (pst sz a v ;; f) m m'.
  Proof. intros Hs Hc H. unfold pst. apply runs_stp; [|exact H]. rewrite Z2Nat.id by lia. exact Hc. Qed.

  Lemma runs_forp {B} (f : Z -> bprog unit) (g : bytes -> Z -> bytes) l :
    (forall i m m' (k : bprog B), In i l -> runs k (g m i) m' -> runs (f i ;; k) m m') ->
    forall m m' (k : bprog B), runs k (fold_left g l m) m' -> runs (forp l f ;; k) m m'.
  Proof.
    induction l as [|i l IH]; intros Hf m m' k H; cbn [forp bind fold_left] in *; [exact H|].
    rewrite runs_assoc. apply Hf; [now left|]. apply IH; [|exact H].
    intros j m1 m1' k1 Hj. apply Hf. now right.
  Qed.
  Lemma runs_mapp {A B} (f : Z -> bprog A) (v : bytes -> Z -> A) l m m' :
    (forall i (k : A -> bprog B), In i l -> runs (k (v m i)) m m' -> runs (bind (f i) k) m m') ->
    forall (k : list A -> bprog B), runs (k (map (v m) l)) m m' -> runs (bind (mapp l f) k) m m'.
  Proof.
    induction l as [|i l IH]; intros Hf k H; cbn [mapp bind map] in *; [exact H|].
    rewrite runs_assoc. apply Hf; [now left|]. rewrite runs_assoc. apply IH.
    - intros j kj Hj. apply Hf. now right.
    - cbn [bind]. exact H.
  Qed.

  Lemma runs_ploadv {B} sz a (k : list Z -> bprog B) m m' : good_sz sz -> cover R a 32 ->
    runs (k (loadv sz m a)) m m' -> runs (bind (ploadv sz a) k) m m'.
  Proof.
    intros Hg Hc H. pose proof (good_pos sz Hg). destruct (perReg_props sz Hg) as (HL & Lpos & _).
    unfold ploadv. apply (runs_mapp _ (fun m l => ld sz m (a + l * sz))); [|exact H].
    intros i ki Hi Hk. apply zrange_In in Hi. apply runs_pld; [lia| |exact Hk].
    eapply cover_sub; [exact Hc| |]; nia.
  Qed.
  Lemma runs_pstorev {B} sz vs : 0 <= sz -> forall a (k : bprog B) m m', cover W a (sz * Z.of_nat (length vs)) ->
    runs k (storev sz m a vs) m' -> runs (pstorev sz a vs ;; k) m m'.
  Proof.
    intros Hs. induction vs as [|v vs IH]; intros a k m m' Hc H; cbn [pstorev storev bind] in *; [exact H|].
    cbn [length] in Hc. rewrite runs_assoc. apply runs_pst; [exact Hs| |].
    - eapply cover_sub; [exact Hc| |]; nia.
    - apply IH; [|exact H]. eapply cover_sub; [exact Hc| |]; nia.
  Qed.

  (** what an operand needs of R: element i *)
  Definition elem_cov (sz : Z) (o : opd) (i : Z) : Prop := match o with Ptr p s => cover R (p + i * s) sz | Val _ => True end.
  Definition reg_cov (o : opd) (k : Z) : Prop := match o with Ptr p _ => cover R (p + 32 * k) 32 | Val _ => True end.

  Lemma runs_prd {B} sz o i (k : Z -> bprog B) m m' : 0 <= sz -> elem_cov sz o i -> runs (k (rd sz m o i)) m m' -> runs (bind (prd sz o i) k) m m'.
  Proof. intros Hs Hc H. destruct o as [p s|v]; cbn [prd rd elem_cov bind] in *; [now apply runs_pld|exact H]. Qed.
  Lemma runs_prdv {B} sz o i (k : list Z -> bprog B) m m' : good_sz sz -> reg_cov o i -> runs (k (rdv sz m o i)) m m' -> runs (bind (prdv sz o i) k) m m'.
  Proof. intros Hg Hc H. destruct o as [p s|v]; cbn [prdv rdv reg_cov bind] in *; [now apply runs_ploadv|exact H]. Qed.

  Section Loops.
    Variables (sz : Z) (op opv : Z -> Z -> Z).
    Hypothesis Hg : good_sz sz.
    Let Hs : 0 < sz := good_pos sz Hg.

    Lemma runs_scalar {B} x y out so n (k : bprog B) m m' :
      (forall i, 0 <= i < n -> elem_cov sz x i /\ elem_cov sz y i /\ cover W (out + i * so) sz) ->
      runs k (scalar_loop sz op x y out so n m) m' -> runs (pscalar_loop sz op x y out so n ;; k) m m'.
    Proof.
      intros Hc H. unfold pscalar_loop. eapply runs_forp; [|exact H].
      intros i m1 m1' k1 Hi H1. apply zrange_In in Hi. destruct (Hc i Hi) as (C1 & C2 & C3).
      rewrite runs_assoc. apply runs_prd; [lia|exact C1|]. rewrite runs_assoc. apply runs_prd; [lia|exact C2|].
      apply runs_pst; [lia|exact C3|exact H1].
    Qed.

    Lemma rdv_length o k m : (length (rdv sz m o k) <= Z.to_nat (perReg sz))%nat.
    Proof.
      assert (L : forall a b, length (zrange a b) = Z.to_nat (b - a)) by (intros; apply zrange_length).
      destruct o; cbn [rdv]; unfold loadv, mm_set; rewrite map_length, L; lia.
    Qed.
    Lemma cover_reg a (vs : list Z) : (length vs <= Z.to_nat (perReg sz))%nat -> cover W a 32 -> cover W a (sz * Z.of_nat (length vs)).
    Proof.
      intros Hl Hc. destruct (perReg_props sz Hg) as (HL & Lpos & _). eapply cover_sub; [exact Hc|lia|nia].
    Qed.

    Lemma runs_vector {B} x y out q (k : bprog B) m m' :
      (forall i, 0 <= i < q -> reg_cov x i /\ reg_cov y i /\ cover W (out + 32 * i) 32) ->
      runs k (vector_loop sz opv x y out q m) m' -> runs (pvector_loop sz opv x y out q ;; k) m m'.
    Proof.
      intros Hc H. unfold pvector_loop. eapply runs_forp; [|exact H].
      intros i m1 m1' k1 Hi H1. apply zrange_In in Hi. destruct (Hc i Hi) as (C1 & C2 & C3).
      rewrite runs_assoc. apply runs_prdv; [exact Hg|exact C1|]. rewrite runs_assoc. apply runs_prdv; [exact Hg|exact C2|].
      apply runs_pstorev; [lia| |exact H1]. apply cover_reg; [|exact C3].
      etransitivity; [apply lanes2_length|apply rdv_length].
    Qed.

    (** contiguous operands *)
    Definition whole_cov (o : opd) (n : Z) : Prop := match o with Ptr p s => s = sz /\ cover R p (n * sz) | Val _ => True end.
    Lemma whole_elem o n i : whole_cov o n -> 0 <= i < n -> elem_cov sz o i.
    Proof. destruct o as [p s|v]; cbn; [|auto]. intros [-> H] Hi. eapply cover_sub; [exact H| |]; nia. Qed.
    Lemma whole_reg o n q i : whole_cov o n -> q * perReg sz <= n -> 0 <= i < q -> reg_cov o i.
    Proof.
      destruct (perReg_props sz Hg) as (HL & Lpos & _).
      destruct o as [p s|v]; cbn; [|auto]. intros [-> H] Hq Hi. eapply cover_sub; [exact H| |]; nia.
    Qed.
    Lemma whole_adv o n q i : whole_cov o n -> 0 <= q -> 0 <= i -> q * perReg sz + i < n -> elem_cov sz (adv o (32 * q)) i.
    Proof.
      destruct (perReg_props sz Hg) as (HL & Lpos & _).
      destruct o as [p s|v]; cbn; [|auto]. intros [-> H] Hq Hi Hn. eapply cover_sub; [exact H| |]; nia.
    Qed.

    Lemma runs_body {B} x y vx vy out n (k : bprog B) m m' : 0 <= n ->
      whole_cov x n -> whole_cov y n -> whole_cov vx n -> whole_cov vy n -> cover W out (n * sz) ->
      runs k (body_and_tail sz op opv x y vx vy out n m) m' -> runs (pbody_and_tail sz op opv x y vx vy out n ;; k) m m'.
    Proof.
      intros Hn Cx Cy Cvx Cvy Co H. destruct (perReg_props sz Hg) as (HL & Lpos & Hland).
      unfold pbody_and_tail, body_and_tail in *. cbv zeta in *. destruct (perReg sz <=? n) eqn:E.
      - rewrite runs_assoc. pose proof (Z.div_mod n (perReg sz) ltac:(lia)) as HD.
        pose proof (Z.mod_pos_bound n (perReg sz) Lpos) as HM. rewrite Hland in * by exact Hn.
        assert (Hq : 0 <= n / perReg sz) by (apply Z.div_pos; lia).
        set (q := n / perReg sz) in *. set (r := n mod perReg sz) in *.
        apply runs_vector.
        + intros i Hi. split; [|split].
          * apply (whole_reg vx n q); try assumption. nia.
          * apply (whole_reg vy n q); try assumption. nia.
          * eapply cover_sub; [exact Co| |]; nia.
        + apply runs_scalar; [|exact H]. intros i Hi. split; [|split].
          * apply (whole_adv x n); try assumption; nia.
          * apply (whole_adv y n); try assumption; nia.
          * eapply cover_sub; [exact Co| |]; nia.
      - apply runs_scalar; [|exact H]. intros i Hi. split; [|split].
        + apply (whole_elem x n); assumption.
        + apply (whole_elem y n); assumption.
        + eapply cover_sub; [exact Co| |]; nia.
    Qed.

    Definition around (vf : list Z -> list Z) (p : Z) (om : option bytes) (k : Z) : option bytes :=
      match om with
      | None => None
      | Some m => if (p + 32 * k) mod 32 =? 0 then Some (storev sz m (p + 32 * k) (vf (loadv sz m (p + 32 * k)))) else None
      end.
    Lemma around_none vf p l : fold_left (around vf p) l None = None.
    Proof. induction l as [|k l IH]; [reflexivity|exact IH]. Qed.
    Lemma runs_aligned {B} vf p l (kk : bprog B) m2 m' :
      (forall x, (length x <= Z.to_nat (perReg sz))%nat -> (length (vf x) <= Z.to_nat (perReg sz))%nat) ->
      (forall i, In i l -> cover R (p + 32 * i) 32 /\ cover W (p + 32 * i) 32) ->
      forall m, fold_left (around vf p) l (Some m) = Some m2 -> runs kk m2 m' ->
      runs (forp l (fun k => if (p + 32 * k) mod 32 =? 0 then let! x := ploadv sz (p + 32 * k) in pstorev sz (p + 32 * k) (vf x) else Crash) ;; kk) m m'.
    Proof.
      intros Hvf. induction l as [|i l IH]; intros Hc m E H; cbn [fold_left forp] in *.
      - injection E as ->. exact H.
      - rewrite runs_assoc. destruct (Hc i (or_introl eq_refl)) as [C1 C2]. unfold around in E at 2.
        destruct ((p + 32 * i) mod 32 =? 0); [|rewrite around_none in E; discriminate].
        rewrite runs_assoc. apply runs_ploadv; [exact Hg|exact C1|]. apply runs_pstorev; [lia| |].
        + apply cover_reg; [|exact C2]. apply Hvf. exact (rdv_length (Ptr (p + 32 * i) 0) 0 m) || idtac.
          pose proof (rdv_length (Ptr (p + 32 * i) 0) 0 m) as HL. cbn [rdv] in HL. replace (p + 32 * i + 32 * 0) with (p + 32 * i) in HL by lia. exact HL.
        + apply IH; [|exact E|exact H]. intros j Hj. apply Hc. now right.
    Qed.

    Lemma runs_inplace {B} vf p a2 n (kk : bprog B) m m2 m' : 0 <= n ->
      (forall v x, (length x <= Z.to_nat (perReg sz))%nat -> (length (vf v x) <= Z.to_nat (perReg sz))%nat) ->
      cover R a2 sz -> cover R p (n * sz) -> cover W p (n * sz) ->
      inplace_scalar sz op vf p a2 n m = Some m2 -> runs kk m2 m' -> runs (pinplace_scalar sz op vf p a2 n ;; kk) m m'.
    Proof.
      intros Hn Hvf C2 CR CW E H. destruct (perReg_props sz Hg) as (HL & Lpos & Hland).
      unfold pinplace_scalar, inplace_scalar in *. cbv zeta in *.
      rewrite runs_assoc. apply runs_pld; [lia|exact C2|].
      set (off := Z.land p 31) in *. set (baby := (32 - off) / sz) in *.
      assert (Hoff : 0 <= off < 32).
      { unfold off. change 31 with (Z.ones 5). rewrite Z.land_ones by lia. apply Z.mod_pos_bound. lia. }
      assert (Hbaby : 0 <= baby) by (apply Z.div_pos; lia).
      set (peel := negb (off =? 0) && (baby <=? n)) in *.
      assert (Hpeel : peel = true -> baby <= n) by (unfold peel; lia).
      set (m1 := if peel then scalar_loop sz op (Ptr p sz) (Val (ld sz m a2)) p sz baby m else m) in *.
      set (p1 := if peel then p + baby * sz else p) in *. set (n1 := if peel then n - baby else n) in *.
      assert (Hn1 : 0 <= n1 /\ p <= p1 /\ p1 + n1 * sz = p + n * sz) by (unfold n1, p1; destruct peel; nia).
      assert (Step : forall k : bprog B, runs k m1 m' ->
         runs ((if peel then pscalar_loop sz op (Ptr p sz) (Val (ld sz m a2)) p sz baby else Ret tt) ;; k) m m').
      { intros k Hk. unfold m1 in Hk. destruct peel; [|exact Hk]. apply runs_scalar; [|exact Hk].
        intros i Hi. cbn [elem_cov]. split; [|split; [exact I|]].
        - eapply cover_sub; [exact CR| |]; nia.
        - eapply cover_sub; [exact CW| |]; nia. }
      rewrite runs_assoc. apply Step. clear Step.
      destruct (perReg sz <=? n1) eqn:E1.
      - pose proof (Z.div_mod n1 (perReg sz) ltac:(lia)) as HD. pose proof (Z.mod_pos_bound n1 (perReg sz) Lpos) as HM.
        assert (Hq : 0 <= n1 / perReg sz) by (apply Z.div_pos; lia). rewrite Hland in * by lia.
        set (q := n1 / perReg sz) in *. set (r := n1 mod perReg sz) in *.
        rewrite runs_assoc. apply runs_pld; [lia|exact C2|]. rewrite runs_assoc.
        destruct (aligned_loop sz (vf (ld sz m1 a2)) p1 q m1) as [m3|] eqn:E3; [|discriminate E]. injection E as <-.
        unfold paligned_loop. apply (runs_aligned (vf (ld sz m1 a2)) p1 (zrange 0 q) _ m3).
        + apply Hvf.
        + intros i Hi. apply zrange_In in Hi. split; eapply cover_sub; [exact CR| | |exact CW| |]; nia.
        + exact E3.
        + apply runs_scalar; [|exact H]. intros i Hi. cbn [elem_cov]. split; [|split; [exact I|]].
          * eapply cover_sub; [exact CR| |]; nia.
          * eapply cover_sub; [exact CW| |]; nia.
      - injection E as <-. apply runs_scalar; [|exact H]. intros i Hi. cbn [elem_cov]. split; [|split; [exact I|]].
        + eapply cover_sub; [exact CR| |]; nia.
        + eapply cover_sub; [exact CW| |]; nia.
    Qed.
  End Loops.
End Foot.

(** ---------- the loops of a call ---------- *)
(** the elements of the arrays *)
Definition reads2 (sz a1 s1 a2 s2 n : Z) (x : Z) : Prop :=
  exists i, 0 <= i < n /\ (a1 + i * s1 <= x < a1 + i * s1 + sz \/ a2 + i * s2 <= x < a2 + i * s2 + sz).
Definition writes (sz out so n : Z) (x : Z) : Prop := exists i, 0 <= i < n /\ out + i * so <= x < out + i * so + sz.

(** Kernel_Model's function for a kernel *)
Definition run_kernel (k : kernel) (sz a1 a2 out n s1 s2 so : Z) (m : bytes) : option bytes :=
  match k with
  | KSym op opv => SimpleMathOpFastSymmetric sz op opv a1 a2 out n s1 s2 so m
  | KPlain op opv => SimpleMathOpFast sz op opv a1 a2 out n s1 s2 so m
  | KSlow op => Some (SimpleMathOpSlow sz op a1 a2 out n s1 s2 so m)
  | KNumpy op => Some (scalar_loop sz op (Ptr a1 s1) (Ptr a2 s2) out so n m)
  end.

Lemma mm_set_length sz v : length (mm_set sz v) = Z.to_nat (perReg sz).
Proof. unfold mm_set. rewrite map_length, zrange_length. f_equal. lia. Qed.

Lemma kernel_runs_gen (R W : Z -> Prop) k sz a1 a2 out n s1 s2 so m m' : good_sz sz -> 0 <= n ->
  (forall i, 0 <= i < n -> cover R (a1 + i * s1) sz) -> (forall i, 0 <= i < n -> cover R (a2 + i * s2) sz) ->
  (forall i, 0 <= i < n -> cover W (out + i * so) sz) -> cover R a1 sz -> cover R a2 sz ->
  run_kernel k sz a1 a2 out n s1 s2 so m = Some m' ->
  runs R W (pkernel k sz a1 a2 out n s1 s2 so) m m'.
Proof.
  intros Hg Hn C1 C2 CO Z1 Z2 E. pose proof (good_pos sz Hg) as Hs. apply (runs_bind_ret _ _ _ tt).
  assert (H : runs R W (Ret tt) m' m') by (cbn; reflexivity).
  assert (K : forall P a s, (forall i, 0 <= i < n -> cover P (a + i * s) sz) -> s = sz -> cover P a (n * sz)).
  { intros P a s Hc -> x Hx. apply (Hc ((x - a) / sz)).
    - split; [apply Z.div_pos; lia|apply Z.div_lt_upper_bound; lia].
    - pose proof (Z.div_mod (x - a) sz ltac:(lia)). pose proof (Z.mod_pos_bound (x - a) sz Hs). nia. }
  assert (G : forall op, m' = scalar_loop sz op (Ptr a1 s1) (Ptr a2 s2) out so n m ->
    runs R W (pscalar_loop sz op (Ptr a1 s1) (Ptr a2 s2) out so n ;; Ret tt) m m').
  { intros op ->. apply (runs_scalar R W sz op op Hg); [|exact H]. intros i Hi. cbn [elem_cov]. auto. }
  assert (V1 : forall v, whole_cov R sz (Val v) n) by (intros v; exact I).
  assert (S1 : s1 = sz -> whole_cov R sz (Ptr a1 sz) n) by (intros Es; split; [reflexivity|exact (K R a1 s1 C1 Es)]).
  assert (S2 : s2 = sz -> whole_cov R sz (Ptr a2 sz) n) by (intros Es; split; [reflexivity|exact (K R a2 s2 C2 Es)]).
  assert (L1 : forall f v x, (length x <= Z.to_nat (perReg sz))%nat -> (length (lanes2 f x (mm_set sz v)) <= Z.to_nat (perReg sz))%nat).
  { intros f v x Hx. etransitivity; [apply lanes2_length|exact Hx]. }
  assert (L2 : forall f v x, (length x <= Z.to_nat (perReg sz))%nat -> (length (lanes2 f (mm_set sz v) x) <= Z.to_nat (perReg sz))%nat).
  { intros f v x Hx. etransitivity; [apply lanes2_length|]. rewrite mm_set_length. lia. }
  destruct k as [op opv|op opv|op|op]; cbn [run_kernel pkernel] in *.
  - unfold SimpleMathOpFastSymmetric in E. unfold pSimpleMathOpFastSymmetric.
    destruct ((so =? sz) && (s2 =? sz) && (s1 =? sz)) eqn:E1.
    { assert (so = sz /\ s1 = sz /\ s2 = sz) as (A & B & C) by lia.
      destruct (a1 =? a2) eqn:Ea; cbn [negb] in *; injection E as <-;
        apply runs_body; auto; try lia; exact (K W out so CO A). }
    destruct ((so =? sz) && (s1 =? 0) && (s2 =? sz)) eqn:E2.
    { assert (so = sz /\ s1 = 0 /\ s2 = sz) as (A & B & C) by lia. injection E as <-.
      rewrite runs_assoc. apply runs_pld; [lia|exact Z1|]. apply runs_body; auto; try lia; exact (K W out so CO A). }
    destruct ((so =? sz) && (s2 =? 0) && (s1 =? sz)) eqn:E3.
    { assert (so = sz /\ s2 = 0 /\ s1 = sz) as (A & B & C) by lia.
      destruct (Z.eqb_spec out a1) as [Eo|Eo].
      - eapply (runs_inplace R W sz op op Hg); [lia| |exact Z2|exact (K R a1 s1 C1 C)| |exact E|exact H].
        + intros v x. apply L2.
        + rewrite <- Eo. exact (K W out so CO A).
      - injection E as <-. rewrite runs_assoc. apply runs_pld; [lia|exact Z2|]. apply runs_body; auto; try lia; exact (K W out so CO A). }
    injection E as <-. apply G. reflexivity.
  - unfold SimpleMathOpFast in E. unfold pSimpleMathOpFast.
    destruct ((so =? sz) && negb (s1 =? 0) && negb (s2 =? 0) && (s2 =? sz) && (s1 =? sz)) eqn:E1.
    { assert (so = sz /\ s1 = sz /\ s2 = sz) as (A & B & C) by lia. injection E as <-.
      apply runs_body; auto; try lia; exact (K W out so CO A). }
    destruct ((so =? sz) && (s1 =? 0) && (s2 =? sz)) eqn:E2.
    { assert (so = sz /\ s1 = 0 /\ s2 = sz) as (A & B & C) by lia. injection E as <-.
      rewrite runs_assoc. apply runs_pld; [lia|exact Z1|]. apply runs_body; auto; try lia; exact (K W out so CO A). }
    destruct ((so =? sz) && (s2 =? 0) && (s1 =? sz)) eqn:E3.
    { assert (so = sz /\ s2 = 0 /\ s1 = sz) as (A & B & C) by lia.
      destruct (Z.eqb_spec out a1) as [Eo|Eo].
      - eapply (runs_inplace R W sz op op Hg); [lia| |exact Z2|exact (K R a1 s1 C1 C)| |exact E|exact H].
        + intros v x. apply L1.
        + rewrite <- Eo. exact (K W out so CO A).
      - injection E as <-. rewrite runs_assoc. apply runs_pld; [lia|exact Z2|]. apply runs_body; auto; try lia; exact (K W out so CO A). }
    injection E as <-. apply G. reflexivity.
  - injection E as <-. unfold SimpleMathOpSlow in *. unfold pSimpleMathOpSlow.
    destruct ((so =? sz) && negb (s1 =? 0) && negb (s2 =? 0) && (s2 =? sz) && (s1 =? sz)) eqn:E1.
    { assert (so = sz /\ s1 = sz /\ s2 = sz) as (-> & -> & ->) by lia. apply G. reflexivity. }
    destruct ((so =? sz) && (s1 =? 0) && (s2 =? sz)) eqn:E2.
    { assert (so = sz /\ s1 = 0 /\ s2 = sz) as (-> & -> & ->) by lia.
      rewrite runs_assoc. apply runs_pld; [lia|exact Z1|]. apply (runs_scalar R W sz op op Hg); [|exact H]. intros i Hi. cbn [elem_cov]. auto. }
    destruct ((so =? sz) && (s2 =? 0) && (s1 =? sz)) eqn:E3.
    { assert (so = sz /\ s2 = 0 /\ s1 = sz) as (-> & -> & ->) by lia.
      rewrite runs_assoc. apply runs_pld; [lia|exact Z2|]. apply (runs_scalar R W sz op op Hg); [|exact H]. intros i Hi. cbn [elem_cov]. auto. }
    apply G. reflexivity.
  - apply G. now injection E.
Qed.

Lemma kernel_runs k sz a1 a2 out n s1 s2 so m m' : good_sz sz -> 0 < n ->
  run_kernel k sz a1 a2 out n s1 s2 so m = Some m' ->
  runs (reads2 sz a1 s1 a2 s2 n) (writes sz out so n) (pkernel k sz a1 a2 out n s1 s2 so) m m'.
Proof.
  intros Hg Hn E.
  assert (C1 : forall i, 0 <= i < n -> cover (reads2 sz a1 s1 a2 s2 n) (a1 + i * s1) sz) by (intros i Hi x Hx; exists i; auto).
  assert (C2 : forall i, 0 <= i < n -> cover (reads2 sz a1 s1 a2 s2 n) (a2 + i * s2) sz) by (intros i Hi x Hx; exists i; auto).
  apply kernel_runs_gen; auto; try lia.
  - intros i Hi x Hx. exists i; auto.
  - specialize (C1 0 ltac:(lia)); now replace (a1 + 0 * s1) with a1 in C1 by lia.
  - specialize (C2 0 ltac:(lia)); now replace (a2 + 0 * s2) with a2 in C2 by lia.
Qed.

(** ---------- from blocks to the call ---------- *)
(** [holds F]: the outputs hold F and no other byte has changed *)
Definition outputs (sz out so n : Z) (F : Z -> Z) (m m' : bytes) : Prop :=
  (forall i, 0 <= i < n -> ld sz m' (out + i * so) = F i) /\
  (forall x, (forall i, 0 <= i < n -> ~ (out + i * so <= x < out + i * so + sz)) -> m' x = m x).

Section Call.
  Variables (whole : bprog unit) (body : Z -> Z -> bprog unit) (sz out so n : Z) (F : Z -> Z) (m0 : bytes).
  Variable (R : Z -> Z -> Prop).                       (* what the work on a block may read *)
  Hypothesis Hn : 0 <= n.
  Hypothesis Hsz : 0 < sz.
  Let W (lb : Z) := writes sz (out + WORK_ITEM_CHUNK * lb * so) so (blen n lb).
  Hypothesis Hwhole : exists R' m', runs R' (writes sz out so n) whole m0 m' /\ outputs sz out so n F m0 m'.
  Hypothesis Hblock : forall lb, 0 <= lb < BL n -> exists m', runs (R lb) (W lb) (body lb (blen n lb)) m0 m' /\
    (forall i, 0 <= i < blen n lb -> ld sz m' (out + (WORK_ITEM_CHUNK * lb + i) * so) = F (WORK_ITEM_CHUNK * lb + i)).
  Hypothesis Hsep : forall lb lb' x, 0 <= lb < BL n -> 0 <= lb' < BL n -> lb <> lb' -> W lb x -> ~ R lb' x /\ ~ W lb' x.

  Lemma choose_fin : exists fin, forall lb, 0 <= lb < BL n -> runs (R lb) (W lb) (body lb (blen n lb)) m0 (fin lb) /\
    (forall i, 0 <= i < blen n lb -> ld sz (fin lb) (out + (WORK_ITEM_CHUNK * lb + i) * so) = F (WORK_ITEM_CHUNK * lb + i)).
  Proof.
    exists (fun lb => match solo (body lb (blen n lb)) m0 with Some m => m | None => m0 end). intros lb Hlb.
    destruct (Hblock lb Hlb) as (m' & H1 & H2). destruct (runs_solo _ _ _ _ _ H1) as (m2 & E & Em). rewrite E. split.
    - clear - H1 Em. revert H1. generalize (body lb (blen n lb)) m0. intros p. induction p as [a|x k IH|x v k IH| |]; intros m H; cbn [runs] in *; try contradiction.
      + intros x. rewrite Em. apply H.
      + destruct H. split; auto.
      + destruct H. split; auto.
    - intros i Hi. rewrite <- H2 by exact Hi. apply ldn_ext. intros x _. apply Em.
  Qed.

  Lemma call_rule h : ~ ufault_in whole body n h m0 /\
    (forall m', ucall whole body n h m0 m' -> outputs sz out so n F m0 m').
  Proof.
    destruct h as [|T zz sched]; cbn [ufault_in ucall].
    - destruct Hwhole as (R' & m' & H1 & H2 & H3). destruct (runs_solo _ _ _ _ _ H1) as (m2 & E & Em). rewrite E. split; [discriminate|].
      intros m3 Q. injection Q as <-. split.
      + intros i Hi. rewrite <- H2 by exact Hi. apply ldn_ext. intros x _. apply Em.
      + intros x Hx. rewrite Em. now apply H3.
    - destruct choose_fin as (fin & Hf).
      assert (Rule : 0 <= T -> _) by (intros HT; exact (tso_rule body n T zz m0 HT R W fin (fun lb H => proj1 (Hf lb H)) Hsep sched)).
      cbv zeta in Rule. split.
      + intros (_ & HT & Hq). destruct (Rule HT) as [Rl _]. congruence.
      + intros m' (_ & HT & Hr & Em). destruct (Rule HT) as [_ Rl]. destruct (Rl Hr) as [R1 R2]. rewrite Em in R1, R2. split.
        * intros i Hi. pose proof (block_of_elem n i Hi) as Hb. set (lb := i / CH) in *.
          pose proof (proj2 (blen_elems n lb i Hb) (conj Hi eq_refl)) as He.
          replace i with (WORK_ITEM_CHUNK * lb + (i - CH * lb)) by (unfold CH; lia).
          rewrite <- (proj2 (Hf lb Hb)) by (unfold CH in *; lia). apply ldn_ext. intros x Hx. apply (R1 lb Hb).
          exists (i - CH * lb). split; [unfold CH in *; lia|]. rewrite Z2Nat.id in Hx by lia. unfold CH in *. nia.
        * intros x Hx. apply R2. intros lb Hb (i & Hi & Hix). apply (Hx (CH * lb + i)).
          -- apply (proj1 (proj1 (blen_elems n lb (CH * lb + i) Hb) ltac:(lia))).
          -- unfold CH. nia.
  Qed.

  (** however far a threaded call has got, it can be brought to its end *)
  Lemma call_can_return T zz sched : WORK_ITEM_BIG <= n -> 0 <= T -> exists more m', ucall whole body n (Threaded T zz (sched ++ more)) m0 m'.
  Proof.
    intros Hbig HT. destruct choose_fin as (fin & Hf).
    destruct (tso_can_return body n T zz m0 Hn HT R W fin (fun lb H => proj1 (Hf lb H)) Hsep sched) as (more & Hm).
    exists more. eexists. cbn [ucall]. split; [exact Hbig|]. split; [exact HT|]. split; [exact Hm|reflexivity].
  Qed.
End Call.
