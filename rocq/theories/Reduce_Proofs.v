(** Reduce_Proofs.v - lemmas about Reduce_Model. *)
From Verif Require Import Base Threads_Model Threads_Proofs Reduce_Model.

Lemma fold_left_ext_in {A B} (f g : A -> B -> A) l a :
  (forall a b, In b l -> f a b = g a b) -> fold_left f l a = fold_left g l a.
Proof.
  revert a; induction l as [|b l IH]; intros a H; [reflexivity|].
  cbn [fold_left]. rewrite H by (left; reflexivity). apply IH. intros; apply H; right; assumption.
Qed.

Lemma map_zseq_shift (k : nat) a b : map (fun i => a + i) (zseq b k) = zseq (a + b) k.
Proof.
  revert b; induction k as [|k IH]; intros b; [reflexivity|]. simpl. f_equal. rewrite IH. f_equal. lia.
Qed.

Lemma map_zrange_shift a b c : map (fun i => a + i) (zrange b c) = zrange (a + b) (a + c).
Proof. unfold zrange. rewrite map_zseq_shift. f_equal. f_equal. lia. Qed.

Section AC.
  Context {T : Type} (op : T -> T -> T).
  Hypothesis op_assoc : forall x y z, op x (op y z) = op (op x y) z.
  Hypothesis op_comm : forall x y, op x y = op y x.

  (** right accumulate: a := op x a *)
  Definition M (l : list T) (a : T) : T := fold_left (fun a x => op x a) l a.

  Lemma M_op l x a : M l (op x a) = op x (M l a).
  Proof.
    unfold M. revert a; induction l as [|y l IH]; intros a; [reflexivity|].
    cbn [fold_left]. rewrite <- IH. f_equal. rewrite !op_assoc. f_equal. apply op_comm.
  Qed.

  Lemma M_app l1 l2 a : M (l1 ++ l2) a = M l2 (M l1 a).
  Proof. unfold M. now rewrite fold_left_app. Qed.

  Lemma M_swap l1 l2 a : M l2 (M l1 a) = M l1 (M l2 a).
  Proof.
    revert a; induction l1 as [|x l1 IH]; intros a; [reflexivity|].
    change (M l2 (M l1 (op x a)) = M l1 (op x (M l2 a))). rewrite IH. f_equal. now rewrite M_op.
  Qed.

  Lemma M_map2 {A} (f g : A -> T) l a :
    M (map (fun i => op (f i) (g i)) l) a = M (map f l) (M (map g l) a).
  Proof.
    revert a; induction l as [|i l IH]; intros a; [reflexivity|].
    change (M (map (fun i => op (f i) (g i)) l) (op (op (f i) (g i)) a) =
            M (map f l) (op (f i) (M (map g l) (op (g i) a)))).
    rewrite IH, <- op_assoc, !M_op. reflexivity.
  Qed.

  Lemma fold_M {A} (f : A -> T) l a : fold_left (fun a i => op (f i) a) l a = M (map f l) a.
  Proof. unfold M. revert a; induction l as [|i l IH]; intros a; [reflexivity|]. simpl. apply IH. Qed.

  Lemma fold_M' {A} (f : A -> T) l a : fold_left (fun a i => op a (f i)) l a = M (map f l) a.
  Proof.
    rewrite <- fold_M. apply fold_left_ext_in. intros; apply op_comm.
  Qed.

  (** ---- C12: the vector kernel ---- *)
  Definition elem (rd : Z -> T) (p sz i : Z) : T := rd (p + i * sz).

  Lemma map_vec_load rd p sz idx L : map (vec_load rd p sz idx) (lanes L) = map (elem rd p sz) (zrange idx (idx + L)).
  Proof.
    unfold lanes. replace (zrange idx (idx + L)) with (zrange (idx + 0) (idx + L)) by (f_equal; lia).
    rewrite <- map_zrange_shift, map_map. reflexivity.
  Qed.

  Lemma vec_loop_spec rd p sz L q m a : 0 <= L -> 1 <= q ->
    (M (map (fst m) (lanes L)) (M (map (snd m) (lanes L)) a) = M (map (elem rd p sz) (zrange 0 (2 * L))) a) ->
    let m' := vec_loop op rd p sz L q m in
    M (map (fst m') (lanes L)) (M (map (snd m') (lanes L)) a) = M (map (elem rd p sz) (zrange 0 (2 * L * q))) a.
  Proof.
    intros HL Hq H.
    pattern q. apply Zlt_lower_bound_ind with (z := 1); [|exact Hq]. clear q Hq.
    intros q IH Hq. destruct (Z.eq_dec q 1) as [->|Hne].
    - unfold vec_loop. rewrite zrange_nil by lia. cbn [fold_left]. rewrite H. f_equal. f_equal. f_equal. lia.
    - specialize (IH (q - 1) ltac:(lia)). cbv zeta in *.
      assert (Hl : vec_loop op rd p sz L q m =
          let m1 := vec_loop op rd p sz L (q - 1) m in
          (vec_op op (fst m1) (vec_load rd p sz (2 * L * (q - 1))), vec_op op (snd m1) (vec_load rd p sz (2 * L * (q - 1) + L)))).
      { unfold vec_loop. replace q with ((q - 1) + 1) at 1 by lia. rewrite zrange_snoc by lia.
        rewrite fold_left_app. reflexivity. }
      rewrite Hl. cbv zeta. set (m1 := vec_loop op rd p sz L (q - 1) m) in *. cbn [fst snd]. unfold vec_op.
      rewrite !M_map2, !map_vec_load.
      rewrite (zrange_split 0 (2 * L * (q - 1)) (2 * L * q)) by nia.
      rewrite (zrange_split (2 * L * (q - 1)) (2 * L * (q - 1) + L) (2 * L * q)) by nia.
      rewrite !map_app, !M_app, <- IH.
      replace (2 * L * (q - 1) + L + L) with (2 * L * q) by lia.
      set (A1 := map (fst m1) (lanes L)). set (A2 := map (snd m1) (lanes L)).
      set (B1 := map (elem rd p sz) (zrange (2 * L * (q - 1)) (2 * L * (q - 1) + L))).
      set (B2 := map (elem rd p sz) (zrange (2 * L * (q - 1) + L) (2 * L * q))).
      rewrite (M_swap B1 A1). rewrite (M_swap B1 B2). f_equal.
      rewrite (M_swap B2 A2). apply M_swap.
  Qed.

  Lemma kernel_fold L sz rd p start n stride : 0 < L -> sz <> 0 -> 0 <= n ->
    ReduceMathOpFast op L sz rd p start n stride =
    fold_left (fun acc i => op acc (rd (p + i * stride))) (zrange 0 n) start.
  Proof.
    intros HL Hsz Hn. rewrite fold_M'. unfold ReduceMathOpFast.
    destruct (Z.eqb_spec stride 0) as [->|Hs]; cbn [negb].
    - rewrite fold_M. f_equal. apply map_ext. intros i. f_equal. lia.
    - destruct (Z.eqb_spec stride sz) as [->|Hs']; cbn [andb].
      2: { unfold tail_loop. now rewrite fold_M. }
      destruct (Z.leb_spec (2 * L) n) as [Hl|Hl].
      2: { unfold tail_loop. now rewrite fold_M. }
      cbv zeta. set (q := n / (2 * L)).
      assert (Hq : 1 <= q) by (apply Z.div_le_lower_bound; lia).
      assert (Hq2 : 2 * L * q <= n) by (apply Z.mul_div_le; lia).
      unfold tail_loop, horizontal. rewrite !fold_M. unfold vec_op at 1. rewrite M_map2.
      rewrite (vec_loop_spec rd p sz L q _ start); try lia.
      + rewrite <- M_app. rewrite <- map_app. rewrite <- zrange_split by lia. reflexivity.
      + cbn [fst snd]. rewrite !map_vec_load. rewrite (M_swap (map _ (zrange L (L + L)))).
        rewrite <- M_app, <- map_app. replace (0 + L) with L by lia. replace (L + L) with (2 * L) by lia.
        rewrite <- zrange_split by lia. reflexivity.
  Qed.
End AC.

(** ---- the threaded machine ---- *)
Section Machine.
  Context {T : Type} (r : redcall T) (rd : Z -> T).
  Variables (n W : Z) (zz : bool).
  Hypothesis Hn : 0 < n.
  Hypothesis HW : 0 <= W.

  Lemma rrun_eng sched s : eng (rrun r rd s sched) = run no_ufunc (eng s) sched.
  Proof.
    revert s; induction sched as [|c l IH]; intros s; [reflexivity|]. simpl. now rewrite IH.
  Qed.

  Lemma rrun_snoc sched c s : rrun r rd s (sched ++ [c]) = rstep r rd c (rrun r rd s sched).
  Proof. unfold rrun. now rewrite fold_left_app. Qed.

  Definition PInv (s : rstate T) : Prop :=
    forall w, 0 <= w < BL n -> In (CH * w + blen n w - 1) (log (eng s)) ->
      part s w = chunk_value r rd CH w (blen n w).

  Lemma pinv_run junk sched : PInv (rrun r rd (rstart n W zz junk) sched).
  Proof.
    induction sched as [|c sched IH] using rev_ind.
    - intros w Hw [].
    - rewrite rrun_snoc. set (s := rrun r rd (rstart n W zz junk) sched) in *.
      destruct (reach_inv no_ufunc n W zz HW (fun _ => tt) sched) as (d & b & I).
      assert (He : eng s = run no_ufunc (start n W zz (fun _ => tt)) sched)
        by (unfold s; rewrite rrun_eng; reflexivity).
      rewrite <- He in I.
      intros w Hw Hin. unfold rstep in *. cbn [eng part] in *.
      pose proof (I_pc _ _ _ _ _ _ I c) as Hpc.
      pose proof (I_static _ _ _ _ _ _ I) as (_ & _ & _ & Hbs & _).
      assert (Hcase : (exists lb len k, pcs (eng s) c = Work lb len k /\ k < len) \/
                      log (step no_ufunc c (eng s)) = log (eng s)).
      { unfold step. destruct (pcs (eng s) c) as [|i st|lb len|lb len k|lb| |i| |].
        4: { destruct (Z.ltb_spec k len); [left; eauto|right; reflexivity]. }
        all: right;
          try (match goal with |- context [if ?b then _ else _] => destruct b end);
          try (match goal with |- context [if ?b then _ else _] => destruct b end); reflexivity. }
      destruct Hcase as [(lb & len & k & Hp & Hk)|Hl].
      + rewrite Hp in *. cbn [pc_ok] in Hpc. destruct Hpc as (_ & Hlen & Hk0).
        assert (Hlog : log (step no_ufunc c (eng s)) = log (eng s) ++ [CH * lb + k]).
        { unfold step. rewrite Hp. destruct (Z.ltb_spec k len); [|lia]. simpl. now rewrite Hbs. }
        rewrite Hlog in Hin. apply in_app_iff in Hin.
        assert (Hheld : Drawn n W zz (eng s) lb)
          by (apply (I_held _ _ _ _ _ _ I c); rewrite Hp; reflexivity).
        destruct Hheld as [Hlb _].
        rewrite Hbs. destruct (Z.eqb_spec (k + 1) len) as [Hkl|Hkl].
        * destruct (Z.eq_dec w lb) as [->|Hne].
          -- rewrite zupd_eq. now rewrite Hlen.
          -- rewrite zupd_neq by assumption. apply IH; [assumption|].
             destruct Hin as [Hin|[Hin|[]]]; [assumption|exfalso].
             pose proof (blen_pos n w Hw). pose proof (blen_pos n lb Hlb).
             assert (CH = 16384) by reflexivity. lia.
        * apply IH; [assumption|].
          destruct Hin as [Hin|[Hin|[]]]; [assumption|exfalso].
          pose proof (blen_pos n w Hw). pose proof (blen_pos n lb Hlb).
          assert (CH = 16384) by reflexivity.
          assert (lb = w) by lia. subst. lia.
      + rewrite Hl in Hin.
        destruct (pcs (eng s) c) as [| | |lb len k| | | | |]; try (apply IH; assumption).
        destruct (Z.eqb_spec (k + 1) len) as [Hkl|Hkl]; [|apply IH; assumption].
        rewrite Hbs. cbn [pc_ok] in Hpc. destruct Hpc as (_ & Hlen & Hk0).
        destruct (Z.eq_dec w lb) as [->|Hne].
        * rewrite zupd_eq. now rewrite Hlen.
        * rewrite zupd_neq by assumption. apply IH; assumption.
  Qed.

  Lemma returned_parts junk sched : pcs (eng (rrun r rd (rstart n W zz junk) sched)) 0 = Returned ->
    forall w, 0 <= w < red_chunks n ->
      part (rrun r rd (rstart n W zz junk) sched) w =
      chunk_value r rd 16384 w (Z.min 16384 (n - 16384 * w)).
  Proof.
    intros Hr w Hw.
    assert (HBL : red_chunks n = BL n).
    { unfold red_chunks, BL. change WORK_ITEM_CHUNK with 16384. rewrite CH_val. lia. }
    rewrite HBL in Hw.
    assert (Hlen : blen n w = Z.min 16384 (n - 16384 * w)).
    { unfold blen. rewrite land_mask. unfold BL in *. rewrite CH_val in *.
      destruct (Z.eqb_spec (w + 1) ((n + (16384 - 1)) / 16384)) as [E1|E1].
      - destruct (negb (n mod 16384 =? 0)) eqn:E2; lia.
      - lia. }
    rewrite <- Hlen. apply pinv_run; [assumption|].
    rewrite rrun_eng in *.
    destruct (reach_inv no_ufunc n W zz HW (fun _ => tt) sched) as (d & b & I).
    set (e := CH * w + blen n w - 1).
    pose proof (blen_pos n w Hw).
    assert (He : 0 <= e < n /\ e / CH = w) by (apply blen_elems; [assumption|unfold e; lia]).
    apply occ_In. change (eng (rstart n W zz junk)) with (start n W zz (fun _ : Z => tt)).
    rewrite (inv_returned_log n W zz _ d b 0 e I Hr).
    destruct ((0 <=? e) && (e <? n)) eqn:E; lia.
  Qed.
End Machine.

(** ---- combining the chunks ---- *)
Section Combine.
  Context {T : Type} (op : T -> T -> T).
  Hypothesis op_assoc : forall x y z, op x (op y z) = op (op x y) z.
  Hypothesis op_comm : forall x y, op x y = op y x.
  Variables (x : Z -> T) (init s0 : T).

  Definition foldx (a b : Z) (v : T) : T := fold_left (fun acc i => op acc (x i)) (zrange a b) v.

  Lemma foldx_op a b u v : foldx a b (op u v) = op u (foldx a b v).
  Proof. unfold foldx. rewrite !fold_M' by assumption. now apply M_op. Qed.

  Hypothesis absorb : forall l, op (fold_left (fun acc i => op acc (x i)) l init) s0 =
                                fold_left (fun acc i => op acc (x i)) l init.

  Lemma combine_chunks n k : 0 < n -> 0 <= k -> 
    fold_left (fun acc w => op acc (foldx (16384 * w) (Z.min n (16384 * w + 16384)) s0)) (zrange 0 k) init =
    foldx 0 (Z.min n (16384 * k)) init.
  Proof.
    intros Hn. revert k. apply natlike_ind.
    - rewrite zrange_nil by lia. unfold foldx. rewrite zrange_nil by lia. reflexivity.
    - intros k Hk IH. replace (Z.succ k) with (k + 1) by lia.
      rewrite zrange_snoc by lia. rewrite fold_left_app. cbn [fold_left]. rewrite IH.
      rewrite <- foldx_op. 
      replace (op (foldx 0 (Z.min n (16384 * k)) init) s0) with (foldx 0 (Z.min n (16384 * k)) init)
        by (symmetry; apply absorb).
      destruct (Z.le_gt_cases n (16384 * k)) as [H|H].
      + unfold foldx at 1. rewrite zrange_nil by lia. cbn [fold_left]. f_equal. lia.
      + unfold foldx. rewrite <- fold_left_app. f_equal. replace (Z.min n (16384 * k)) with (16384 * k) by lia.
        rewrite <- zrange_split by lia. f_equal. lia.
  Qed.
End Combine.
