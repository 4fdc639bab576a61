(** RedBytes_Proofs.v - the byte programs of RedBytes_Model.v compute the values of Reduce_Model.v, and a threaded call puts
    together the values of its chunks, whatever the interleaving. *)
From Verif Require Import Base Threads_Model Threads_Proofs Threads_Live_Proofs Threads_Props Reduce_Model Reduce_Proofs Reduce_Props
  Jobs_Model Sort_Model Kernel_Model Kernel_Proofs Kernel_Props Ufunc_Model Ufunc_Proofs Ufunc_Kernel_Proofs RedBytes_Model.

Lemma lanes2_map {A} (f : Z -> Z -> Z) (g h : A -> Z) l : lanes2 f (map g l) (map h l) = map (fun k => f (g k) (h k)) l.
Proof. induction l as [|k l IH]; [reflexivity|]. cbn [map lanes2]. now rewrite IH. Qed.

Section Prog.
  Variables (R W : Z -> Prop).
  Notation runs := (runs R W).
  Lemma runs_foldp {A B} (f : A -> Z -> bprog A) (g : A -> Z -> A) (P : A -> Prop) l m m' :
    (forall a i (k : A -> bprog B), In i l -> P a -> (P (g a i) -> runs (k (g a i)) m m') -> runs (bind (f a i) k) m m') ->
    (forall a i, In i l -> P a -> P (g a i)) ->
    forall a (k : A -> bprog B), P a -> (P (fold_left g l a) -> runs (k (fold_left g l a)) m m') -> runs (bind (foldp l f a) k) m m'.
  Proof.
    induction l as [|i l IH]; intros Hf Hg a k Ha H; cbn [foldp bind fold_left] in *; [now apply H|].
    rewrite runs_assoc. apply Hf; [now left|exact Ha|]. intros Hp. apply IH; [| |exact Hp|exact H].
    - intros b j k' Hj. apply Hf. now right.
    - intros b j Hj. apply Hg. now right.
  Qed.

  Variables (sz : Z) (op opv ideal : Z -> Z -> Z) (ok : Z -> Prop).
  Hypothesis Hg : good_sz sz.
  Hypothesis Hop : forall x y, ok x -> ok y -> op x y = ideal x y /\ opv x y = ideal x y /\ ok (ideal x y).
  Let Hs : 0 < sz := good_pos sz Hg.
  Notation L := (perReg sz).

  Lemma runs_tailp {B} pin stride i0 n s (k : Z -> bprog B) m m' :
    (forall i, i0 <= i < n -> cover R (pin + i * stride) sz /\ ok (ld sz m (pin + i * stride))) -> ok s ->
    (ok (tail_loop ideal (ld sz m) pin stride i0 n s) -> runs (k (tail_loop ideal (ld sz m) pin stride i0 n s)) m m') ->
    runs (bind (tailp sz op pin stride i0 n s) k) m m'.
  Proof.
    intros Hc Hi H. unfold tailp, tail_loop in *. eapply runs_foldp with (P := ok); [| |exact Hi|exact H].
    - intros a i k' Hin Ha Hk. apply zrange_In in Hin. destruct (Hc i Hin) as [C O]. rewrite runs_assoc. apply runs_pld; [lia|exact C|]. cbn [bind].
      destruct (Hop _ _ O Ha) as (E & _ & O2). rewrite E. now apply Hk.
    - intros a i Hin Ha. apply zrange_In in Hin. destruct (Hc i Hin) as [_ O]. now apply (Hop _ _ O Ha).
  Qed.

  Lemma runs_vectorp {B} pin q s (k : Z -> bprog B) m m' : 1 <= q ->
    (forall i, 0 <= i < 2 * L * q -> cover R (pin + i * sz) sz /\ ok (ld sz m (pin + i * sz))) -> ok s ->
    let mm := vec_loop ideal (ld sz m) pin sz L q (vec_load (ld sz m) pin sz 0, vec_load (ld sz m) pin sz L) in
    let v := horizontal ideal L (vec_op ideal (fst mm) (snd mm)) s in
    (ok v -> runs (k v) m m') -> runs (bind (vectorp sz op opv pin q s) k) m m'.
  Proof.
    intros Hq Hc Hi mm v H. destruct (perReg_props sz Hg) as (HL & Lpos & _).
    assert (C32 : forall c, 0 <= c < 2 * q -> cover R (pin + 32 * c) 32).
    { intros c Hcq x Hx. destruct (Hc (L * c + (x - pin - 32 * c) / sz)) as [C _].
      - assert (0 <= (x - pin - 32 * c) / sz < L) by (split; [apply Z.div_pos; lia|apply Z.div_lt_upper_bound; lia]). nia.
      - apply C. pose proof (Z.div_mod (x - pin - 32 * c) sz ltac:(lia)). pose proof (Z.mod_pos_bound (x - pin - 32 * c) sz Hs). nia. }
    assert (LV : forall a e, a = pin + e * sz -> loadv sz m a = map (vec_load (ld sz m) pin sz e) (zrange 0 L)).
    { intros a e ->. unfold loadv. apply map_ext. intros j. unfold vec_load. f_equal. ring. }
    unfold vectorp. rewrite runs_assoc. apply runs_ploadv; [exact Hg|specialize (C32 0 ltac:(lia)); now rewrite Z.mul_0_r, Z.add_0_r in C32|].
    rewrite runs_assoc. apply runs_ploadv; [exact Hg|apply (C32 1); lia|]. rewrite runs_assoc.
    rewrite (LV pin 0) by lia. rewrite (LV (pin + 32) L) by lia.
    (* the registers as lists of lanes *)
    set (rep := fun (p : (Z -> Z) * (Z -> Z)) => (map (fst p) (zrange 0 L), map (snd p) (zrange 0 L))).
    set (okp := fun (p : (Z -> Z) * (Z -> Z)) => forall j, 0 <= j < L -> ok (fst p j) /\ ok (snd p j)).
    set (stepv := fun (m1 : (Z -> Z) * (Z -> Z)) c => (vec_op ideal (fst m1) (vec_load (ld sz m) pin sz (2 * L * c)), vec_op ideal (snd m1) (vec_load (ld sz m) pin sz (2 * L * c + L)))).
    assert (Hstep : forall p c, 1 <= c < q -> okp p -> okp (stepv p c) /\
       (lanes2 opv (fst (rep p)) (loadv sz m (pin + 64 * c)), lanes2 opv (snd (rep p)) (loadv sz m (pin + 64 * c + 32))) = rep (stepv p c)).
    { intros p c Hcq Hp. rewrite (LV _ (2 * L * c)) by nia. rewrite (LV _ (2 * L * c + L)) by nia. split.
      - intros j Hj. destruct (Hp j Hj) as [O1 O2]. unfold stepv, vec_op, vec_load. cbn [fst snd]. split; (apply Hop; [assumption|apply Hc; nia]).
      - unfold rep, stepv. cbn [fst snd]. rewrite !lanes2_map. f_equal; apply map_ext_in; intros j Hj; apply zrange_In in Hj; destruct (Hp j Hj) as [O1 O2];
          unfold vec_op, vec_load; (apply Hop; [assumption|apply Hc; nia]). }
    assert (Loop : forall l p (kk : list Z * list Z -> bprog B), (forall c, In c l -> 1 <= c < q) -> okp p ->
      (okp (fold_left stepv l p) -> runs (kk (rep (fold_left stepv l p))) m m') ->
      runs (bind (foldp l (fun m1 c => let! x := ploadv sz (pin + 64 * c) in let! y := ploadv sz (pin + 64 * c + 32) in
        Ret (lanes2 opv (fst m1) x, lanes2 opv (snd m1) y)) (rep p)) kk) m m').
    { induction l as [|c l IH]; intros p kk Hl Hp Hk; cbn [foldp bind fold_left] in *; [now apply Hk|].
      specialize (Hl c (or_introl eq_refl)) as Hcq. rewrite runs_assoc. rewrite runs_assoc. apply runs_ploadv; [exact Hg| |].
      { replace (pin + 64 * c) with (pin + 32 * (2 * c)) by ring. apply C32. lia. }
      rewrite runs_assoc. apply runs_ploadv; [exact Hg| |].
      { replace (pin + 64 * c + 32) with (pin + 32 * (2 * c + 1)) by ring. apply C32. lia. }
      cbn [bind]. destruct (Hstep p c Hcq Hp) as [Hp' E]. rewrite E. apply IH; [intros d Hd; apply Hl; now right|exact Hp'|exact Hk]. }
    assert (H0 : okp (vec_load (ld sz m) pin sz 0, vec_load (ld sz m) pin sz L)) by (intros j Hj; unfold vec_load; cbn [fst snd]; split; apply Hc; nia).
    apply (Loop (zrange 1 q) (vec_load (ld sz m) pin sz 0, vec_load (ld sz m) pin sz L)); [intros c Hcc; now apply zrange_In in Hcc|exact H0|].
    change (fold_left stepv (zrange 1 q) (vec_load (ld sz m) pin sz 0, vec_load (ld sz m) pin sz L)) with mm. intros Hmm. cbn [bind].
    unfold rep. cbn [fst snd]. rewrite lanes2_map.
    assert (Hor : forall l s0, (forall j, In j l -> 0 <= j < L) -> ok s0 ->
      fold_left (fun a v => op v a) (map (fun j => opv (fst mm j) (snd mm j)) l) s0 = fold_left (fun a j => ideal (vec_op ideal (fst mm) (snd mm) j) a) l s0 /\
      ok (fold_left (fun a j => ideal (vec_op ideal (fst mm) (snd mm) j) a) l s0)).
    { induction l as [|j l IH]; intros s0 Hl Hs0; cbn [map fold_left]; [auto|]. destruct (Hmm j (Hl j (or_introl eq_refl))) as [O1 O2].
      destruct (Hop _ _ O1 O2) as (_ & E & O3). rewrite E. destruct (Hop _ _ O3 Hs0) as (E2 & _ & O4). rewrite E2. unfold vec_op at 2 4.
      apply IH; [intros j' Hj'; apply Hl; now right|exact O4]. }
    destruct (Hor (zrange 0 L) s) as [E O]; [intros j Hj; now apply zrange_In in Hj|exact Hi|]. rewrite E. apply H. exact O.
  Qed.

  (** the kernel's value, and that it is a proper element *)
  Lemma runs_pReduce pin pout pstart n stride m : 0 <= n -> cover R pstart sz -> cover W pout sz -> ok (ld sz m pstart) ->
    (forall i, 0 <= i < n -> cover R (pin + i * stride) sz /\ ok (ld sz m (pin + i * stride))) ->
    let v := ReduceMathOpFast ideal L sz (ld sz m) pin (ld sz m pstart) n stride in
    ok v /\ runs (pReduce sz op opv pin pout pstart n stride) m (st sz m pout v).
  Proof.
    intros Hn Cs Co Os Hc v. destruct (perReg_props sz Hg) as (HL & Lpos & _).
    assert (Ov : ok v).
    { unfold v, ReduceMathOpFast. assert (T : forall i0 s, 0 <= i0 -> ok s -> ok (tail_loop ideal (ld sz m) pin stride i0 n s)).
      { intros i0 s Hi Hok. unfold tail_loop. assert (G : forall l s, (forall i, In i l -> 0 <= i < n) -> ok s -> ok (fold_left (fun a i => ideal (ld sz m (pin + i * stride)) a) l s)).
        { induction l as [|i l IH]; intros s0 Hl H0; cbn [fold_left]; [exact H0|]. apply IH; [intros j Hj; apply Hl; now right|]. apply Hop; [apply Hc, Hl; now left|exact H0]. }
        apply G; [intros i Hin; apply zrange_In in Hin; lia|exact Hok]. }
      destruct (Z.eqb_spec stride 0) as [E0|E0]; cbn [negb].
      - assert (G : forall l s, (forall i, In i l -> 0 <= i < n) -> ok s -> ok (fold_left (fun a (_ : Z) => ideal (ld sz m pin) a) l s)).
        { induction l as [|i l IH]; intros s0 Hl H0; cbn [fold_left]; [exact H0|]. apply IH; [intros j Hj; apply Hl; now right|]. apply Hop; [|exact H0].
          destruct (Hc i (Hl i (or_introl eq_refl))) as [_ O]. rewrite E0, Z.mul_0_r, Z.add_0_r in O. exact O. }
        apply G; [intros i Hin; now apply zrange_In in Hin|exact Os].
      - destruct ((stride =? sz) && (2 * L <=? n)) eqn:C; [|apply T; [lia|exact Os]].
        apply andb_true_iff in C. destruct C as [C1 C2]. apply Z.eqb_eq in C1. apply Z.leb_le in C2. cbv zeta.
        assert (Q1 : 1 <= n / (2 * L)) by (apply Z.div_le_lower_bound; lia). assert (Q2 : 2 * L * (n / (2 * L)) <= n) by (apply Z.mul_div_le; lia).
        apply T; [nia|]. assert (Hc' : forall i, 0 <= i < n -> ok (ld sz m (pin + i * sz))) by (intros i Hi; destruct (Hc i Hi) as [_ O]; now rewrite C1 in O).
        (* horizontal *)
        set (q := n / (2 * L)) in *. set (mm := vec_loop _ _ _ _ _ _ _).
        assert (Hm : forall j, 0 <= j < L -> ok (fst mm j) /\ ok (snd mm j)).
        { unfold mm, vec_loop. assert (G : forall l (p : (Z -> Z) * (Z -> Z)), (forall c, In c l -> 1 <= c < q) -> (forall j, 0 <= j < L -> ok (fst p j) /\ ok (snd p j)) ->
            forall j, 0 <= j < L -> let r := fold_left (fun m0 c => (vec_op ideal (fst m0) (vec_load (ld sz m) pin sz (2 * L * c)), vec_op ideal (snd m0) (vec_load (ld sz m) pin sz (2 * L * c + L)))) l p in ok (fst r j) /\ ok (snd r j)).
          { induction l as [|c l IH]; intros p Hl Hp j Hj; cbn [fold_left]; [now apply Hp|]. apply IH; [intros d Hd; apply Hl; now right| |exact Hj].
            intros j' Hj'. destruct (Hp j' Hj') as [O1 O2]. specialize (Hl c (or_introl eq_refl)). unfold vec_op, vec_load. cbn [fst snd].
            split; (apply Hop; [assumption|apply Hc'; nia]). }
          apply G; [intros c Hcc; now apply zrange_In in Hcc|]. intros j Hj. cbn [fst snd]. unfold vec_load. split; apply Hc'; nia. }
        unfold horizontal, lanes. assert (G : forall l s, (forall j, In j l -> 0 <= j < L) -> ok s -> ok (fold_left (fun a lane => ideal (vec_op ideal (fst mm) (snd mm) lane) a) l s)).
        { induction l as [|j l IH]; intros s0 Hl H0; cbn [fold_left]; [exact H0|]. apply IH; [intros j' Hj'; apply Hl; now right|]. apply Hop; [|exact H0].
          unfold vec_op. apply Hop; apply Hm, Hl; now left. }
        apply G; [intros j Hj; now apply zrange_In in Hj|exact Os]. }
    split; [exact Ov|]. apply (runs_bind_ret _ _ _ tt). unfold pReduce. rewrite runs_assoc. apply runs_pld; [lia|exact Cs|].
    assert (Fin : forall r, r = v -> runs (pst sz pout r ;; Ret tt) m (st sz m pout v)).
    { intros r ->. apply runs_pst; [lia|exact Co|]. cbn. reflexivity. }
    assert (Ev : v = ReduceMathOpFast ideal L sz (ld sz m) pin (ld sz m pstart) n stride) by reflexivity. clearbody v. unfold ReduceMathOpFast in Ev.
    destruct (Z.eqb_spec stride 0) as [E0|E0]; cbn [negb] in *.
    - rewrite runs_assoc. eapply runs_foldp with (P := ok) (g := fun a (_ : Z) => ideal (ld sz m pin) a); [| |exact Os|intros _; apply Fin; symmetry; exact Ev].
      + intros a i k' Hin Ha Hk. apply zrange_In in Hin. destruct (Hc i Hin) as [C O]. rewrite E0, Z.mul_0_r, Z.add_0_r in C, O. rewrite runs_assoc. apply runs_pld; [lia|exact C|]. cbn [bind].
        destruct (Hop _ _ O Ha) as (E & _ & O2). rewrite E. now apply Hk.
      + intros a i Hin Ha. apply zrange_In in Hin. destruct (Hc i Hin) as [_ O]. rewrite E0, Z.mul_0_r, Z.add_0_r in O. now apply (Hop _ _ O Ha).
    - destruct ((stride =? sz) && (2 * L <=? n)) eqn:C.
      + apply andb_true_iff in C. destruct C as [C1 C2]. apply Z.eqb_eq in C1. apply Z.leb_le in C2. subst stride. cbv zeta in *.
        assert (Q1 : 1 <= n / (2 * L)) by (apply Z.div_le_lower_bound; lia). assert (Q2 : 2 * L * (n / (2 * L)) <= n) by (apply Z.mul_div_le; lia).
        rewrite runs_assoc. apply runs_vectorp; [exact Q1|intros i Hi; apply Hc; lia|exact Os|]. intros Oh. rewrite runs_assoc.
        apply runs_tailp; [intros i Hi; apply Hc; nia|exact Oh|]. intros _. apply Fin. symmetry. exact Ev.
      + rewrite runs_assoc. apply runs_tailp; [intros i Hi; apply Hc; lia|exact Os|]. intros _. apply Fin. symmetry. exact Ev.
  Qed.
End Prog.

(** NumPy's loop *)
Lemma runs_pNumpyReduce (R W : Z -> Prop) sz nop ideal (ok : Z -> Prop) pin pacc n stride m : good_sz sz ->
  (forall x y, ok x -> ok y -> nop x y = ideal x y /\ ok (ideal x y)) ->
  0 <= n -> cover R pacc sz -> cover W pacc sz -> ok (ld sz m pacc) ->
  (forall i, 0 <= i < n -> cover R (pin + i * stride) sz /\ ok (ld sz m (pin + i * stride))) ->
  let v := numpy_loop ideal (ld sz m) pin (ld sz m pacc) n stride in
  ok v /\ runs R W (pNumpyReduce sz nop pin pacc n stride) m (st sz m pacc v).
Proof.
  intros Hg Hop Hn Cr Cw Os Hc v. pose proof (good_pos sz Hg) as Hs.
  assert (Ov : ok v).
  { unfold v, numpy_loop. assert (G : forall l s, (forall i, In i l -> 0 <= i < n) -> ok s -> ok (fold_left (fun acc i => ideal acc (ld sz m (pin + i * stride))) l s)).
    { induction l as [|i l IH]; intros s0 Hl H0; cbn [fold_left]; [exact H0|]. apply IH; [intros j Hj; apply Hl; now right|]. apply Hop; [exact H0|]. apply Hc, Hl. now left. }
    apply G; [intros i Hi; now apply zrange_In in Hi|exact Os]. }
  split; [exact Ov|]. apply (runs_bind_ret _ _ _ tt). unfold pNumpyReduce. rewrite runs_assoc. apply runs_pld; [lia|exact Cr|]. rewrite runs_assoc.
  eapply runs_foldp with (P := ok) (g := fun acc i => ideal acc (ld sz m (pin + i * stride))); [| |exact Os|].
  - intros a i k' Hin Ha Hk. apply zrange_In in Hin. destruct (Hc i Hin) as [C O]. rewrite runs_assoc. apply runs_pld; [lia|exact C|]. cbn [bind].
    destruct (Hop _ _ Ha O) as (E & O2). rewrite E. now apply Hk.
  - intros a i Hin Ha. apply zrange_In in Hin. destruct (Hc i Hin) as [_ O]. now apply (Hop _ _ Ha O).
  - intros _. fold (numpy_loop ideal (ld sz m) pin (ld sz m pacc) n stride). fold v. apply runs_pst; [lia|exact Cw|]. cbn. reflexivity.
Qed.
