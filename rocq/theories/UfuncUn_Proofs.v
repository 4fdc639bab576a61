(** UfuncUn_Proofs.v - C73: a unary loop on worker threads leaves what it leaves alone. *)
From Verif Require Import Base Threads_Model Threads_Proofs Jobs_Model Sort_Model Kernel_Model Kernel_Proofs Kernel_Props
  Float_Model Compare_Model Compare_Proofs Compare_Props Unary_Model Unary_Proofs Unary_Props UnaryVal_Props Round_Model Round_Props Arith_Model Arith_Props Trig_Model Trig_Props
  Ufunc_Model Ufunc_Proofs Ufunc_Kernel_Proofs UfuncCmp_Model UfuncCmp_Props UfuncUn_Model.

(** ---------- specification ---------- *)
(** [k] bytes at p and [l] bytes at q do not meet *)
Definition away (k l p q : Z) : Prop := p + k <= q \/ q + l <= p.
(** The arrays of the call: outputs ([szo] bytes each) do not overlap one another, nor an input of another position
    (the array may be its own output). *)
Definition separate_un (sz szo a s out so n : Z) : Prop :=
  forall i j, 0 <= i < n -> 0 <= j < n -> i <> j ->
    away szo szo (out + i * so) (out + j * so) /\ away szo sz (out + i * so) (a + j * s).
Definition un_faults (k : ukernel) a out n s so (h : how) (m : bytes) : Prop :=
  ufault_in (pukernel k a out n s so) (uon_block k a out s so) n h m.
Definition un_ends (k : ukernel) a out n s so (h : how) (m m' : bytes) : Prop :=
  ucall (pukernel k a out n s so) (uon_block k a out s so) n h m m'.
(** NumPy's loop with operation [nop], alone *)
Definition numpy_loop (sz szo : Z) (nop : Z -> Z) : ufun := fun a out n s so m =>
  fold_left (fun m i => st szo m (out + i * so) (nop (ld sz m (a + i * s)))) (zrange 0 n) m.

(** ---------- the byte programs run alone ---------- *)
Definition urun (k : ukernel) : ufun := fun a out n s so m =>
  match k with
  | UFast sz op opv => UnaryOpFast sz op opv a out n s so m
  | USlow sz szo op => slow sz szo op a out n s so m
  | UFill v => fill v a out n s so m
  | URounds sz B nreg W comp minlen tailp op =>
      if (1 =? so) && (sz =? s) && (minlen <=? n) then
        fold_left (fun m i => st 1 m (out + W * (n / W) + i) (b2z (tailp (ld sz m (a + B * nreg * (n / W) + i * sz)))))
          (zrange 0 (n - W * (n / W))) (vrounds sz B nreg W comp a out (n / W) m)
      else slow_bool sz op a out n s so m
  | UNumpy sz szo op => numpy_loop sz szo op a out n s so m
  end.
Lemma urun_table u t a out n s so m : 0 <= n ->
  match kGetUnaryOp u t, GetUnaryOp u t with Some k, Some f => urun k a out n s so m = f a out n s so m | None, None => True | _, _ => False end.
Proof.
  intros Hn.
  assert (LUT : forall sz L g op, urun (klut sz L g op) a out n s so m = UnaryLut sz L g op a out n s so m).
  { intros sz L g op. cbn [urun klut]. unfold UnaryLut. destruct ((1 =? so) && (sz =? s) && (L <=? n)) eqn:E; [|reflexivity].
    assert (so = 1 /\ s = sz) as [-> ->] by lia.
    replace ((out + 1 * n - (out + L * (n / L))) / 1) with (n - L * (n / L)) by (rewrite Z.div_1_r; ring).
    apply fold_ext. intros m' i. now rewrite !Z.mul_1_r. }
  destruct u, t as [[]| |]; cbn [kGetUnaryOp GetUnaryOp]; try exact Logic.I; try reflexivity; try apply LUT.
  - cbn [urun]. unfold UnaryNanFastFloat. destruct (Z.leb_spec 0 n); [|lia]. rewrite andb_true_r. reflexivity.
  - cbn [urun]. unfold UnaryInfFastFloat. destruct (Z.leb_spec 0 n); [|lia]. rewrite andb_true_r. reflexivity.
Qed.

Definition kin (k : ukernel) : Z := match k with UFast sz _ _ => sz | USlow sz _ _ => sz | UFill _ => 1 | URounds sz _ _ _ _ _ _ _ => sz | UNumpy sz _ _ => sz end.
Definition kout (k : ukernel) : Z := match k with UFast sz _ _ => sz | USlow _ szo _ => szo | UFill _ => 1 | URounds _ _ _ _ _ _ _ _ => 1 | UNumpy _ szo _ => szo end.
(** a well-formed loop *)
Definition uregular (k : ukernel) : Prop :=
  match k with
  | UFast sz op opv => good_sz sz /\ (forall x, pat sz x -> pat sz (op x)) /\ (forall x, pat sz x -> pat sz (opv x))
  | USlow sz szo op | UNumpy sz szo op => 0 < sz /\ 0 < szo /\ (forall x, pat sz x -> pat szo (op x))
  | UFill v => v = 0 \/ v = 1
  | URounds sz B nreg W comp minlen tailp op =>
      0 < sz /\ 0 < B / sz /\ B = (B / sz) * sz /\ 0 < nreg /\ W = nreg * (B / sz) /\
      (forall xs, Z.of_nat (length (comp xs)) <= W) /\
      (exists p, ulanes_ok (Z.to_nat nreg) (Z.to_nat (B / sz)) comp p /\ (forall x, pat sz x -> p x = op x)) /\
      (forall x, pat sz x -> tailp x = op x)
  end.
Definition is_numpy (k : ukernel) : Prop := match k with UNumpy _ _ _ => True | _ => False end.

Section Foot.
  Variables (R W : Z -> Prop).
  Notation runs := (runs R W).
  Lemma runs_pslow {A} sz szo op a out cnt s so (k : bprog A) m m' : 0 <= sz -> 0 <= szo ->
    (forall i, 0 <= i < cnt -> cover R (a + i * s) sz /\ cover W (out + i * so) szo) ->
    runs k (fold_left (fun m i => st szo m (out + i * so) (op (ld sz m (a + i * s)))) (zrange 0 cnt) m) m' ->
    runs (pslow sz szo op a out cnt s so ;; k) m m'.
  Proof.
    intros H1 H2 Hc H. unfold pslow. eapply runs_forp; [|exact H].
    intros i m1 m1' k1 Hi Hk. apply zrange_In in Hi. destruct (Hc i Hi) as [C1 C2].
    rewrite runs_assoc. apply runs_pld; [exact H1|exact C1|]. apply runs_pst; [exact H2|exact C2|exact Hk].
  Qed.
  Lemma while_le so n i : 0 <= i < while_rounds so n -> 0 <= i < n.
  Proof. unfold while_rounds. destruct (so =? 0); lia. Qed.

  Lemma uruns k a out n s so m : uregular k -> 0 <= n ->
    (forall i, 0 <= i < n -> cover R (a + i * s) (kin k)) -> (forall i, 0 <= i < n -> cover W (out + i * so) (kout k)) ->
    runs (pukernel k a out n s so) m (urun k a out n s so m).
  Proof.
    intros Hr Hn CR CW. apply (runs_bind_ret _ _ _ tt).
    assert (H : runs (Ret tt) (urun k a out n s so m) (urun k a out n s so m)) by (cbn; reflexivity).
    assert (K : forall P sz a s, 0 < sz -> (forall i, 0 <= i < n -> cover P (a + i * s) sz) -> s = sz -> cover P a (n * sz)).
    { intros P sz b s' Hs Hc -> x Hx. apply (Hc ((x - b) / sz)).
      - split; [apply Z.div_pos; lia|apply Z.div_lt_upper_bound; lia].
      - pose proof (Z.div_mod (x - b) sz ltac:(lia)). pose proof (Z.mod_pos_bound (x - b) sz Hs). nia. }
    destruct k as [sz op opv|sz szo op|v|sz B nreg Wd comp minlen tailp op|sz szo op]; cbn [pukernel urun kin kout uregular] in *.
    - destruct Hr as (Hg & _ & _). pose proof (good_pos sz Hg) as Hs. destruct (perReg_props sz Hg) as (HL & Lpos & _).
      unfold pUnaryOpFast, UnaryOpFast in *. cbv zeta in *.
      destruct ((sz =? so) && (sz =? s) && (perReg sz <=? n)) eqn:E.
      + assert (so = sz /\ s = sz) as [-> ->] by lia.
        pose proof (K R sz a sz Hs CR eq_refl) as KR. pose proof (K W sz out sz Hs CW eq_refl) as KW.
        pose proof (Z.div_mod n (perReg sz) ltac:(lia)) as HD. pose proof (Z.mod_pos_bound n (perReg sz) Lpos) as HM.
        assert (Hq : 0 <= n / perReg sz) by (apply Z.div_pos; lia). set (q := n / perReg sz) in *.
        rewrite runs_assoc. eapply runs_forp.
        * intros i m1 m1' k1 Hi Hk. apply zrange_In in Hi. rewrite runs_assoc. apply runs_ploadv; [exact Hg|eapply cover_sub; [exact KR| |]; nia|].
          apply runs_pstorev; [lia| |exact Hk]. unfold loadv. rewrite !map_length, zrange_length. eapply cover_sub; [exact KW|nia|]. rewrite Z2Nat.id by lia. nia.
        * assert (Er : (out + sz * n - (out + 32 * q)) / sz = n mod perReg sz).
          { replace (out + sz * n - (out + 32 * q)) with (n mod perReg sz * sz); [apply Z.div_mul; lia|rewrite HD at 2; rewrite <- HL; ring]. }
          apply runs_pslow; try lia; [|exact H].
          rewrite Er. intros i Hi. split; (eapply cover_sub; [first [exact KR|exact KW]| |]); nia.
      + apply runs_pslow; try lia; [|exact H]. intros i Hi. apply while_le in Hi. auto.
    - apply runs_pslow; try lia; [|exact H]. intros i Hi. apply while_le in Hi. auto.
    - unfold pfill, fill in *. destruct (Z.eqb_spec so 1) as [->|].
      + eapply runs_forp; [|exact H]. intros i m1 m1' k1 Hi Hk. apply zrange_In in Hi. apply runs_pst; [lia| |exact Hk].
        specialize (CW i Hi). now rewrite Z.mul_1_r in CW.
      + eapply runs_forp; [|exact H]. intros i m1 m1' k1 Hi Hk. apply zrange_In in Hi. apply while_le in Hi. apply runs_pst; [lia|auto|exact Hk].
    - destruct Hr as (Hs & HL & HB & Hnr & HW & Hlen & _ & _). unfold prounds. cbv zeta in *.
      destruct ((1 =? so) && (sz =? s) && (minlen <=? n)) eqn:E.
      + assert (so = 1 /\ s = sz) as [-> ->] by lia.
        pose proof (K R sz a sz Hs CR eq_refl) as KR.
        assert (KW : cover W out n) by (pose proof (K W 1 out 1 ltac:(lia) CW eq_refl) as Q; now rewrite Z.mul_1_r in Q).
        assert (HW0 : 0 < Wd) by (rewrite HW; nia). destruct (rounds_ok Wd n HW0 Hn) as [Hq Hqn]. set (q := n / Wd) in *.
        assert (EB : B * nreg = Wd * sz) by (rewrite HW, HB at 1; ring).
        rewrite runs_assoc. eapply runs_forp.
        * intros i m1 m1' k1 Hi Hk. apply zrange_In in Hi. rewrite runs_assoc.
          eapply runs_pregs with (Wd := Wd) (n := n); try first [exact Hs|exact (conj HL HB)|exact Hnr|exact HW|exact (fun _ _ => false)|exact (fun xs _ : list reg => comp xs)|exact (fun xs _ => Hlen xs)].
          -- split; [reflexivity|exact KR].
          -- lia.
          -- nia.
          -- apply runs_pstorev; [lia| |exact Hk]. eapply cover_sub; [exact KW|nia|]. pose proof (Hlen (regs sz B nreg m1 (Ptr a sz) i)). nia.
        * eapply runs_forp; [|exact H]. intros i m1 m1' k1 Hi Hk. apply zrange_In in Hi. rewrite runs_assoc.
          apply runs_pld; [lia| |].
          -- rewrite EB. assert (0 <= Wd * sz * q + i * sz) by nia.
             assert (Wd * sz * q + i * sz + sz <= n * sz) by (replace (Wd * sz * q + i * sz + sz) with ((Wd * q + i + 1) * sz) by ring; nia).
             eapply cover_sub; [exact KR| |]; lia.
          -- apply runs_pst; [lia| |exact Hk]. eapply cover_sub; [exact KW| |]; nia.
      + apply runs_pslow; try lia; [|exact H]. intros i Hi. apply while_le in Hi. auto.
    - apply runs_pslow; try lia; [|exact H]. intros i Hi. auto.
  Qed.
End Foot.

(** ---------- what each output holds ---------- *)
Definition uval (k : ukernel) (s so n i x : Z) : Z :=
  match k with
  | UFast sz op opv => (if in_body sz s so n i then opv else op) x
  | USlow _ _ op | UNumpy _ _ op => op x
  | UFill v => v
  | URounds _ _ _ _ _ _ _ op => b2z (op x)
  end.

Lemma away_read sz szo out so F n k m0 m a s i : 0 <= sz -> separate_un sz szo a s out so n -> 0 <= k <= i -> i < n ->
  upto szo out so F k m0 m -> ld sz m (a + i * s) = ld sz m0 (a + i * s).
Proof.
  intros Hs Hc Hk Hi [_ U2]. apply ld_ext; [exact Hs|]. intros x Hx. apply U2.
  intros j Hj. destruct (Hc j i ltac:(lia) ltac:(lia) ltac:(lia)) as [_ D]. unfold away in D. lia.
Qed.
Lemma sep_outs sz szo a s out so n : separate_un sz szo a s out so n -> outs_separate szo out so n.
Proof. intros H i j Hi Hj Hne. destruct (H i j Hi Hj Hne) as [D _]. exact D. Qed.
Lemma sep_clobber sz a s out so n : separate_un sz sz a s out so n -> no_clobber sz a s out so n.
Proof. intros H i j Hj Hi. destruct (H j i ltac:(lia) ltac:(lia) ltac:(lia)) as [_ D]. exact D. Qed.
Lemma sep_uop sz a s out so n : separate_un sz 1 a s out so n -> uoperands sz a s out so n.
Proof.
  intros H. split.
  - exact (sep_outs _ _ _ _ _ _ _ H).
  - intros i j Hj Hi. destruct (H j i ltac:(lia) ltac:(lia) ltac:(lia)) as [_ D]. unfold away in D. lia.
Qed.

Lemma loop_outputs sz szo op a out n s so m : 0 <= sz -> 0 <= szo -> (forall x, pat sz x -> pat szo (op x)) -> 0 <= n -> bytes_ok m ->
  separate_un sz szo a s out so n ->
  outputs szo out so n (fun i => op (ld sz m (a + i * s))) m (numpy_loop sz szo op a out n s so m).
Proof.
  intros H1 H2 Hcl Hn Hm Hc. set (F := fun i => op (ld sz m (a + i * s))).
  assert (U : upto szo out so F n m (numpy_loop sz szo op a out n s so m)).
  { unfold numpy_loop. apply (zrange_app_ind (fun k m' => upto szo out so F k m m')); [exact Hn|apply upto_0|].
    intros k m' Hk U. rewrite (away_read sz szo out so F n k m m' a s k) by (try assumption; lia).
    change (op (ld sz m (a + k * s))) with (F k). eapply upto_step; eauto; try lia; [exact (sep_outs _ _ _ _ _ _ _ Hc)|]. apply Hcl, ld_pat; [lia|exact Hm]. }
  exact U.
Qed.
Lemma slow_loop sz szo op a out n s so m : so <> 0 -> slow sz szo op a out n s so m = numpy_loop sz szo op a out n s so m.
Proof. intros H. unfold slow, numpy_loop, while_rounds. now destruct (Z.eqb_spec so 0). Qed.
Lemma udid_outputs sz p a s out so n m m' : udid sz p a s out so n m m' -> outputs 1 out so n (fun i => b2z (p (ld sz m (a + i * s)))) m m'.
Proof.
  intros [D1 D2]. split; [intros i Hi; rewrite ld1; now apply D1|]. intros x Hx. apply D2. intros i Hi E. apply (Hx i Hi). lia.
Qed.

Lemma usound k a out n s so m : uregular k -> 0 <= n -> (so = 0 -> is_numpy k) -> bytes_ok m -> separate_un (kin k) (kout k) a s out so n ->
  outputs (kout k) out so n (fun i => uval k s so n i (ld (kin k) m (a + i * s))) m (urun k a out n s so m).
Proof.
  intros Hr Hn Hso Hm Hc.
  destruct k as [sz op opv|sz szo op|v|sz B nreg Wd comp minlen tailp op|sz szo op]; cbn [urun kin kout uregular uval is_numpy] in *.
  - destruct Hr as (Hg & H1 & H2). apply unary_split; auto; [exact (sep_outs _ _ _ _ _ _ _ Hc)|exact (sep_clobber _ _ _ _ _ _ Hc)].
  - destruct Hr as (H1 & H2 & H3). rewrite slow_loop by auto. apply loop_outputs; auto; lia.
  - assert (D : udid 1 (fun _ => v =? 1) a s out so n m (fill v a out n s so m)) by (apply fill_did; auto; exact (sep_outs _ _ _ _ _ _ _ Hc)).
    apply udid_outputs in D. cbv beta in D. assert (V : b2z (v =? 1) = v) by (destruct Hr as [-> | ->]; reflexivity). now rewrite V in D.
  - destruct Hr as (Hs & HL & HB & Hnr & HW & Hlen & (p & Hp & Hpo) & Ht). apply sep_uop in Hc.
    assert (G : outputs 1 out so n (fun i => b2z (op (ld sz m (a + i * s)))) m (slow_bool sz op a out n s so m)).
    { apply udid_outputs, slow_bool_did; auto. lia. }
    destruct ((1 =? so) && (sz =? s) && (minlen <=? n)) eqn:E; [|exact G].
    assert (so = 1 /\ s = sz) as [-> ->] by lia.
    pose proof (vrounds_did sz B (B / sz) nreg Wd comp p tailp Hs HL eq_refl HB Hnr HW Hp ltac:(intros x Hx; now rewrite Ht, Hpo by exact Hx) a out n m Hn Hm Hc) as D.
    apply udid_outputs in D. destruct D as [D1 D2]. split; [|exact D2]. intros i Hi. etransitivity; [exact (D1 i Hi)|]. cbv beta. f_equal. apply Ht, ld_pat; [lia|exact Hm].
  - destruct Hr as (H1 & H2 & H3). apply loop_outputs; auto; lia.
Qed.

(** a block's body and tail are the call's: blocks are whole numbers of registers *)
Lemma perReg_div sz : good_sz sz -> exists c, CH = c * perReg sz.
Proof.
  intros Hg. unfold good_sz in Hg. destruct Hg as [->|[->|[->| ->]]]; unfold perReg, CH, WORK_ITEM_CHUNK.
  - now exists 512. - now exists 1024. - now exists 2048. - now exists 4096.
Qed.
Lemma blen_shape n lb : 0 <= lb < BL n -> (blen n lb = CH /\ CH * (lb + 1) <= n) \/ (CH * lb + blen n lb = n /\ blen n lb <= CH).
Proof.
  intros Hb. pose proof (blen_pos n lb Hb) as Hp. assert (HC : CH = 16384) by reflexivity.
  pose proof (proj1 (blen_elems n lb (CH * lb + blen n lb - 1) Hb) ltac:(lia)) as [H1 H2].
  assert (HL : blen n lb <= CH).
  { pose proof (Z.div_mod (CH * lb + blen n lb - 1) CH ltac:(lia)) as D. pose proof (Z.mod_pos_bound (CH * lb + blen n lb - 1) CH ltac:(lia)). rewrite H2 in D. lia. }
  destruct (Z.eq_dec (blen n lb) CH) as [E|E]; [left; split; [exact E|lia]|right]. split; [|exact HL].
  destruct (Z.lt_ge_cases (CH * lb + blen n lb) n) as [L|L]; [|lia].
  assert (Q : (CH * lb + blen n lb) / CH = lb) by (rewrite Z.mul_comm, Z.div_add_l by lia; rewrite Z.div_small by lia; lia).
  assert (P0 : 0 <= CH * lb + blen n lb) by (rewrite HC; lia).
  pose proof (proj2 (blen_elems n lb (CH * lb + blen n lb) Hb) (conj (conj P0 L) Q)). lia.
Qed.
Lemma in_body_block sz s so n lb i : good_sz sz -> 0 <= lb < BL n -> 0 <= i < blen n lb ->
  in_body sz s so n (CH * lb + i) = in_body sz s so (blen n lb) i.
Proof.
  intros Hg Hb Hi. unfold in_body. f_equal. destruct (perReg_props sz Hg) as (_ & Lpos & _). destruct (perReg_div sz Hg) as (c & Hc).
  set (p := perReg sz) in *. destruct (blen_shape n lb Hb) as [[E H]|[H1 H2]].
  - rewrite E in *. assert (D : CH / p * p = CH) by (rewrite Hc; rewrite Z.div_mul by lia; reflexivity).
    replace (i <? p * (CH / p)) with true by (symmetry; apply Z.ltb_lt; lia). apply Z.ltb_lt.
    pose proof (Z.div_mod n p ltac:(lia)). pose proof (Z.mod_pos_bound n p Lpos).
    assert (c * (lb + 1) <= n / p) by (apply Z.div_le_lower_bound; nia). nia.
  - replace (n / p) with (c * lb + blen n lb / p).
    + replace (p * (c * lb + blen n lb / p)) with (CH * lb + p * (blen n lb / p)) by (rewrite Hc; ring).
      destruct (Z.ltb_spec (CH * lb + i) (CH * lb + p * (blen n lb / p))), (Z.ltb_spec i (p * (blen n lb / p))); try reflexivity; lia.
    + assert (En : n = c * lb * p + blen n lb) by (rewrite Hc in H1; lia).
      set (b := blen n lb) in *. rewrite En, Z.div_add_l by lia. reflexivity.
Qed.
Lemma uval_block k s so n lb i x : uregular k -> 0 <= lb < BL n -> 0 <= i < blen n lb ->
  uval k s so (blen n lb) i x = uval k s so n (CH * lb + i) x.
Proof.
  intros Hr Hb Hi. destruct k as [sz op opv|sz szo op|v|sz B nreg Wd comp minlen tailp op|sz szo op]; cbn [uval]; try reflexivity.
  rewrite (in_body_block sz) by (try assumption; apply Hr). reflexivity.
Qed.

(** ---------- a call ---------- *)
Lemma separate_un_ok sz szo a s out so n c l : separate_un sz szo a s out so n -> 0 <= c -> c + l <= n ->
  separate_un sz szo (a + c * s) s (out + c * so) so l.
Proof.
  intros H Hc Hl i j Hi Hj Hne. replace (out + c * so + i * so) with (out + (c + i) * so) by ring.
  replace (out + c * so + j * so) with (out + (c + j) * so) by ring. replace (a + c * s + j * s) with (a + (c + j) * s) by ring. apply H; lia.
Qed.
Section Un.
  Variable (k : ukernel).
  Hypothesis Hr : uregular k.
  Variables (a out n s so : Z) (m : bytes).
  Hypothesis Hn : 0 <= n.
  Hypothesis Hso : so = 0 -> is_numpy k.
  Hypothesis Hm : bytes_ok m.
  Hypothesis Hsc : separate_un (kin k) (kout k) a s out so n.
  Let F i := uval k s so n i (ld (kin k) m (a + i * s)).
  Let R lb := writes (kin k) (a + WORK_ITEM_CHUNK * lb * s) s (blen n lb).

  Lemma kout_pos : 0 < kout k.
  Proof.
    destruct k as [sz op opv|sz szo op|v|sz B nreg Wd comp minlen tailp op|sz szo op]; cbn [kout uregular] in *; try lia.
    destruct Hr as [Hg _]. now apply good_pos.
  Qed.
  Lemma un_whole : exists R' m', runs R' (writes (kout k) out so n) (pukernel k a out n s so) m m' /\ outputs (kout k) out so n F m m'.
  Proof.
    exists (fun _ => True), (urun k a out n s so m). split.
    - apply uruns; auto; [intros i Hi x Hx; exact Logic.I|]. intros i Hi x Hx. exists i. auto.
    - now apply usound.
  Qed.
  Lemma un_block lb : 0 <= lb < BL n -> exists m', runs (R lb) (writes (kout k) (out + WORK_ITEM_CHUNK * lb * so) so (blen n lb)) (uon_block k a out s so lb (blen n lb)) m m' /\
    (forall i, 0 <= i < blen n lb -> ld (kout k) m' (out + (WORK_ITEM_CHUNK * lb + i) * so) = F (WORK_ITEM_CHUNK * lb + i)).
  Proof.
    intros Hlb. pose proof (blen_pos n lb Hlb) as Hp.
    pose proof (proj1 (blen_elems n lb (CH * lb + blen n lb - 1) Hlb) ltac:(lia)) as [He _].
    set (c := WORK_ITEM_CHUNK * lb) in *. change (CH * lb) with c in He.
    pose proof (separate_un_ok _ _ a s out so n c (blen n lb) Hsc ltac:(unfold c, WORK_ITEM_CHUNK; lia) ltac:(lia)) as Ho.
    destruct (usound k (a + c * s) (out + c * so) (blen n lb) s so m Hr ltac:(lia) Hso Hm Ho) as [D1 _].
    exists (urun k (a + c * s) (out + c * so) (blen n lb) s so m). split.
    - unfold uon_block, R. fold c. apply uruns; auto; try lia.
      + intros i Hi x Hx. exists i. auto.
      + intros i Hi x Hx. exists i. auto.
    - intros i Hi. replace (out + (c + i) * so) with (out + c * so + i * so) by ring. rewrite D1 by exact Hi. unfold F.
      rewrite uval_block by assumption. change (CH * lb) with c. f_equal. f_equal. ring.
  Qed.
  Lemma un_sep lb lb' x : 0 <= lb < BL n -> 0 <= lb' < BL n -> lb <> lb' ->
    writes (kout k) (out + WORK_ITEM_CHUNK * lb * so) so (blen n lb) x ->
    ~ R lb' x /\ ~ writes (kout k) (out + WORK_ITEM_CHUNK * lb' * so) so (blen n lb') x.
  Proof.
    intros Hb Hb' Hne (i & Hi & Hx).
    assert (Hin : forall l j, 0 <= l < BL n -> 0 <= j < blen n l -> 0 <= CH * l + j < n /\ (CH * l + j) / CH = l)
      by (intros l j Hl Hj; apply (blen_elems n l (CH * l + j) Hl); lia).
    destruct (Hin lb i Hb Hi) as [I1 I2].
    assert (Hx' : out + (CH * lb + i) * so <= x < out + (CH * lb + i) * so + kout k) by (unfold CH; nia).
    split; intros (j & Hj & Hq); destruct (Hin lb' j Hb' Hj) as [J1 J2];
      destruct (Hsc (CH * lb + i) (CH * lb' + j) I1 J1 ltac:(congruence)) as (D0 & D1); unfold away in *.
    - assert (a + (CH * lb' + j) * s <= x < a + (CH * lb' + j) * s + kin k) by (unfold CH; nia). lia.
    - assert (out + (CH * lb' + j) * so <= x < out + (CH * lb' + j) * so + kout k) by (unfold CH; nia). lia.
  Qed.
  Lemma un_call h : ~ un_faults k a out n s so h m /\
    (forall m', un_ends k a out n s so h m m' -> outputs (kout k) out so n F m m').
  Proof. exact (call_rule _ _ (kout k) out so n F m R kout_pos un_whole un_block un_sep h). Qed.
  (** every execution leaves in each output what the loop leaves there when it runs alone over the whole arrays *)
  Lemma un_like_alone h m' : un_ends k a out n s so h m m' ->
    (forall i, 0 <= i < n -> ld (kout k) m' (out + i * so) = ld (kout k) (urun k a out n s so m) (out + i * so)) /\
    (forall x, (forall i, 0 <= i < n -> ~ (out + i * so <= x < out + i * so + kout k)) -> m' x = m x).
  Proof.
    intros H. destruct (proj2 (un_call h) m' H) as [O1 O2]. split; [|exact O2].
    intros i Hi. rewrite O1 by exact Hi. symmetry. exact (proj1 (usound k a out n s so m Hr Hn Hso Hm Hsc) i Hi).
  Qed.
  Lemma un_can_end T zz sched : WORK_ITEM_BIG <= n -> 0 <= T ->
    exists more m', un_ends k a out n s so (Threaded T zz (sched ++ more)) m m'.
  Proof. exact (call_can_return _ _ (kout k) out so n F m R Hn un_block un_sep T zz sched). Qed.
End Un.
