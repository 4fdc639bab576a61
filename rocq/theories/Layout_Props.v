(** Layout_Props.v - C45: the one-stride walk of a multi-dimensional array. *)
From Verif Require Import Base Layout_Model.

(** ---------- specification ---------- *)
(** a multi-index inside the shape *)
Definition inside (ds is_ : list Z) : Prop := Forall2 (fun d i => 0 <= i < d) ds is_.
(** where NumPy keeps the element *)
Fixpoint offset (ss is_ : list Z) : Z := match ss, is_ with s :: ss', i :: is' => i * s + offset ss' is' | _, _ => 0 end.
Fixpoint prod (ds : list Z) : Z := match ds with [] => 1 | d :: ds' => d * prod ds' end.
(** its number in C order (last index fastest), and in Fortran order (first index fastest) *)
Fixpoint c_number (ds is_ : list Z) : Z := match ds, is_ with d :: ds', i :: is' => i * prod ds' + c_number ds' is' | _, _ => 0 end.
Fixpoint f_number (ds is_ : list Z) : Z := match ds, is_ with d :: ds', i :: is' => i + d * f_number ds' is' | _, _ => 0 end.
(** taking the k-th element at k*stride visits the elements in C (Fortran) order *)
Definition walks_in_c_order (a : layout) (stride : Z) : Prop := forall is_, inside (dims a) is_ -> offset (strides a) is_ = c_number (dims a) is_ * stride.
Definition walks_in_f_order (a : layout) (stride : Z) : Prop := forall is_, inside (dims a) is_ -> offset (strides a) is_ = f_number (dims a) is_ * stride.
(** a proper array: as many strides as dimensions *)
Definition proper (a : layout) : Prop := length (strides a) = length (dims a).
Definition first_stride (a : layout) := hd 0 (strides a).
Definition last_stride (a : layout) := last (strides a) 0.

(** ---------- proofs ---------- *)
Fixpoint f_strides (s : Z) (ds : list Z) : list Z := match ds with [] => [] | d :: ds' => s :: f_strides (s * d) ds' end.
Lemma f_strides_offset : forall ds s is_, inside ds is_ -> offset (f_strides s ds) is_ = f_number ds is_ * s.
Proof.
  induction ds as [|d ds IH]; intros s is_ H; inversion H as [|? i ? is' Hi H']; subst; cbn [f_strides offset f_number]; [lia|].
  rewrite IH by exact H'. lia.
Qed.
Lemma walk_nonneg : forall ds cur ss, 0 <= walk cur ds ss.
Proof. induction ds as [|d ds IH]; intros cur ss; cbn [walk]; [lia|]. destruct ss as [|s0 [|s1 ss]]; try lia. destruct (s1 =? cur * d); [apply IH|lia]. Qed.
Lemma walk_zero : forall ds cur ss, length ss = length ds -> (walk cur ds (cur :: tl ss) = 0 /\ ds <> [] <-> cur :: tl ss = f_strides cur ds).
Proof.
  induction ds as [|d ds IH]; intros cur ss L.
  - cbn. split; [intros [_ C]; congruence|discriminate].
  - destruct ss as [|s0 ss]; [discriminate|]. cbn [tl]. injection L as L. destruct ss as [|s1 ss].
    + destruct ds; [|discriminate]. cbn. split; [reflexivity|]. intros _. split; [reflexivity|discriminate].
    + destruct ds as [|d1 ds]; [discriminate|]. cbn [walk f_strides].
      destruct (Z.eqb_spec s1 (cur * d)) as [->|Hne].
      * specialize (IH (cur * d) (cur * d :: ss) L). cbn [tl f_strides] in IH. split.
        -- intros [H _]. f_equal. apply IH. split; [exact H|discriminate].
        -- intros H. injection H as H. split; [|discriminate]. apply IH. now rewrite H.
      * split; [intros [H _]; cbn [length] in H; lia|]. intros H. injection H as H1 _. contradiction.
Qed.
Lemma offset_app : forall ss is_ ss' is', length ss = length is_ -> offset (ss ++ ss') (is_ ++ is') = offset ss is_ + offset ss' is'.
Proof. induction ss as [|s ss IH]; intros [|i is_] ss' is' L; try discriminate; cbn [app offset]; [lia|]. injection L as L. rewrite IH by exact L. lia. Qed.
Lemma offset_rev : forall ss is_, length ss = length is_ -> offset (rev ss) (rev is_) = offset ss is_.
Proof.
  induction ss as [|s ss IH]; intros [|i is_] L; try discriminate; cbn [rev offset]; [reflexivity|]. injection L as L.
  rewrite offset_app by now rewrite !rev_length. rewrite IH by exact L. cbn [offset]. lia.
Qed.
Lemma f_number_app : forall ds is_ ds' is', length ds = length is_ -> f_number (ds ++ ds') (is_ ++ is') = f_number ds is_ + prod ds * f_number ds' is'.
Proof. induction ds as [|d ds IH]; intros [|i is_] ds' is' L; try discriminate; cbn [app f_number prod]; [lia|]. injection L as L. rewrite IH by exact L. lia. Qed.
Lemma prod_app : forall ds ds', prod (ds ++ ds') = prod ds * prod ds'.
Proof. induction ds as [|d ds IH]; intros ds'; cbn [app prod]; [lia|]. rewrite IH. lia. Qed.
Lemma prod_rev ds : prod (rev ds) = prod ds.
Proof. induction ds as [|d ds IH]; cbn [rev prod]; [reflexivity|]. rewrite prod_app, IH. cbn [prod]. lia. Qed.
Lemma c_number_rev : forall ds is_, length ds = length is_ -> f_number (rev ds) (rev is_) = c_number ds is_.
Proof.
  induction ds as [|d ds IH]; intros [|i is_] L; try discriminate; cbn [rev c_number]; [reflexivity|]. injection L as L.
  rewrite f_number_app by now rewrite !rev_length. rewrite IH, prod_rev by exact L. cbn [f_number]. lia.
Qed.
Lemma inside_length ds is_ : inside ds is_ -> length ds = length is_. Proof. intros H; induction H; cbn; congruence. Qed.
Lemma inside_rev ds is_ : inside ds is_ -> inside (rev ds) (rev is_).
Proof. intros H. unfold inside in *. induction H as [|d i ds is_ Hi H IH]; cbn [rev]; [constructor|]. apply Forall2_app; [exact IH|]. now repeat constructor. Qed.

(** zero-index and unit-index probes *)
Definition big (ds : list Z) : Prop := Forall (fun d => 2 <= d) ds.
Lemma zeros_inside ds : big ds -> inside ds (map (fun _ => 0) ds).
Proof. intros H. induction H as [|d ds Hd H IH]; cbn [map]; constructor; [lia|exact IH]. Qed.
Lemma zeros_offset (ds : list Z) : forall ss, offset ss (map (fun _ => 0) ds) = 0.
Proof. induction ds as [|d ds IH]; intros [|s ss]; cbn [map offset]; try reflexivity. now rewrite IH. Qed.
Lemma zeros_number (ds : list Z) : f_number ds (map (fun _ => 0) ds) = 0.
Proof. induction ds as [|d ds IH]; cbn [map f_number]; [reflexivity|]. rewrite IH. lia. Qed.
Lemma f_walks_strides : forall ds ss s, big ds -> length ss = length ds ->
  (forall is_, inside ds is_ -> offset ss is_ = f_number ds is_ * s) -> ss = f_strides s ds.
Proof.
  induction ds as [|d ds IH]; intros ss s B L H; destruct ss as [|s0 ss]; try discriminate; [reflexivity|]. inversion B as [|? ? Hd B']; subst. injection L as L. cbn [f_strides].
  assert (E : s0 = s).
  { specialize (H (1 :: map (fun _ => 0) ds)). cbn [offset f_number] in H. rewrite zeros_offset, zeros_number in H. lapply H; [lia|]. constructor; [lia|now apply zeros_inside]. }
  f_equal; [exact E|]. apply IH; [exact B'|exact L|]. intros is_ Hi. specialize (H (0 :: is_)). cbn [offset f_number] in H. lapply H; [lia|]. constructor; [lia|exact Hi].
Qed.

Lemma last_rev {A} (l : list A) x d : last (rev (x :: l)) d = x. Proof. cbn [rev]. apply last_last. Qed.
Lemma hd_rev (l : list Z) d : hd d (rev l) = last l d.
Proof. induction l as [|x l IH] using rev_ind; [reflexivity|]. rewrite rev_app_distr, last_last. reflexivity. Qed.
Lemma c_walk_zero a : proper a -> dims a <> [] -> (walk (last_stride a) (rev (dims a)) (rev (strides a)) = 0 <-> rev (strides a) = f_strides (last_stride a) (rev (dims a))).
Proof.
  intros P Hn. assert (Hne : rev (dims a) <> []) by (intros C; apply Hn; rewrite <- (rev_involutive (dims a)), C; reflexivity).
  assert (L : length (rev (strides a)) = length (rev (dims a))) by (rewrite !rev_length; exact P).
  assert (Hs : rev (strides a) = last_stride a :: tl (rev (strides a))).
  { unfold last_stride. rewrite <- hd_rev. destruct (rev (strides a)); [destruct (rev (dims a)); [congruence|discriminate]|reflexivity]. }
  rewrite Hs. pose proof (walk_zero (rev (dims a)) (last_stride a) (rev (strides a)) L) as W. cbn [tl]. intuition.
Qed.
Lemma f_walk_zero a : proper a -> dims a <> [] -> (walk (first_stride a) (dims a) (strides a) = 0 <-> strides a = f_strides (first_stride a) (dims a)).
Proof.
  intros P Hn. assert (Hs : strides a = first_stride a :: tl (strides a)).
  { unfold first_stride. unfold proper in P. destruct (strides a); [destruct (dims a); [congruence|discriminate]|reflexivity]. }
  pose proof (walk_zero (dims a) (first_stride a) (strides a) P) as W. rewrite <- Hs in W. intuition.
Qed.
Lemma c_walks_iff a s : proper a -> big (dims a) -> (walks_in_c_order a s <-> rev (strides a) = f_strides s (rev (dims a))).
Proof.
  intros P B. split.
  - intros H. apply f_walks_strides; [now apply Forall_rev|rewrite !rev_length; exact P|].
    intros is_ Hi. rewrite <- (rev_involutive is_). assert (Hr : inside (dims a) (rev is_)) by (rewrite <- (rev_involutive (dims a)); now apply inside_rev).
    pose proof (inside_length _ _ Hr) as Lr. rewrite offset_rev by (unfold proper in P; lia). rewrite c_number_rev by exact Lr. now apply H.
  - intros E is_ Hi. pose proof (inside_length _ _ Hi) as Lr. rewrite <- offset_rev by (unfold proper in P; lia). rewrite E. rewrite f_strides_offset by now apply inside_rev. now rewrite c_number_rev.
Qed.
Lemma c_walks_if a s : proper a -> rev (strides a) = f_strides s (rev (dims a)) -> walks_in_c_order a s.
Proof. intros P E is_ Hi. pose proof (inside_length _ _ Hi) as Lr. rewrite <- offset_rev by (unfold proper in P; lia). rewrite E. rewrite f_strides_offset by now apply inside_rev. now rewrite c_number_rev. Qed.
Lemma f_strides_last : forall ds s, ds <> [] -> last (f_strides s ds) 0 = s * prod (removelast ds).
Proof.
  induction ds as [|d ds IH]; intros s H; [congruence|]. destruct ds as [|d1 ds]; [cbn; lia|]. 
  change (f_strides s (d :: d1 :: ds)) with (s :: f_strides (s * d) (d1 :: ds)). change (removelast (d :: d1 :: ds)) with (d :: removelast (d1 :: ds)).
  change (last (s :: f_strides (s * d) (d1 :: ds)) 0) with (last (f_strides (s * d) (d1 :: ds)) 0). rewrite IH by discriminate. cbn [prod]. lia.
Qed.
Lemma big_removelast : forall ds, big ds -> big (removelast ds).
Proof. induction ds as [|d ds IH]; intros B; [constructor|]. inversion B; subst. destruct ds; [constructor|]. change (removelast (d :: z :: ds)) with (d :: removelast (z :: ds)). constructor; [assumption|now apply IH]. Qed.
Lemma big_prod : forall ds, big ds -> 1 <= prod ds /\ (ds <> [] -> 2 <= prod ds).
Proof. induction ds as [|d ds IH]; intros B; cbn [prod]; [split; [lia|congruence]|]. inversion B as [|? ? Bd Bds]; subst. destruct (IH Bds) as [K _]. clear IH. split; [nia|intros _; nia]. Qed.
Lemma c_first a s : proper a -> big (dims a) -> (2 <= length (dims a))%nat -> rev (strides a) = f_strides s (rev (dims a)) ->
  exists q, 2 <= q /\ first_stride a = s * q /\ last_stride a = s.
Proof.
  intros P B L E. assert (Hn : rev (dims a) <> []) by (destruct (dims a) as [|d ds]; [cbn in L; lia|]; cbn [rev]; intros C; destruct (rev ds); discriminate).
  exists (prod (removelast (rev (dims a)))). split; [|split].
  - apply big_prod; [apply big_removelast; now apply Forall_rev|]. pose proof (rev_length (dims a)) as R. destruct (rev (dims a)) as [|x [|y l]]; cbn in R; try lia. discriminate.
  - rewrite <- f_strides_last by exact Hn. rewrite <- E. unfold first_stride. destruct (strides a) as [|x l]; [reflexivity|]. now rewrite last_rev.
  - unfold last_stride. rewrite <- hd_rev. rewrite E. destruct (rev (dims a)); [congruence|reflexivity].
Qed.
Lemma gsc_two a : (2 <= length (strides a))%nat -> GetStridesAndContig a =
  if last_stride a =? first_stride a then (0, first_stride a)
  else if Z.abs (last_stride a) <? Z.abs (first_stride a) then (walk (last_stride a) (rev (dims a)) (rev (strides a)), last_stride a)
  else (- walk (first_stride a) (dims a) (strides a), first_stride a).
Proof. unfold GetStridesAndContig, last_stride, first_stride. destruct (strides a) as [|s0 [|s1 ss]]; cbn [length]; try lia. intros _. reflexivity. Qed.

(** ---------- C45 ---------- *)
(** no array that can be walked in C order with one stride is refused, when no dimension has length 0 or 1, and the stride returned is the right one *)
Theorem C45_complete_partial : forall a s, proper a -> Forall (fun d => 2 <= d) (dims a) -> dims a <> [] -> walks_in_c_order a s ->
  GetStridesAndContig a = (0, s) /\ accepted_stride a = Some s.
Proof.
  intros a s P B Hn W. apply (c_walks_iff a s P B) in W. assert (G : GetStridesAndContig a = (0, s)).
  { destruct (Nat.le_gt_cases 2 (length (dims a))) as [L|L].
    - destruct (c_first a s P B L W) as (q & Hq & Ef & El). rewrite gsc_two by (unfold proper in P; lia). rewrite El, Ef.
      destruct (Z.eqb_spec s (s * q)) as [E|Hne]; [now rewrite <- E|].
      replace (Z.abs s <? Z.abs (s * q)) with true by (symmetry; apply Z.ltb_lt; rewrite Z.abs_mul; nia).
      pose proof (proj2 (c_walk_zero a P Hn)) as Z0. rewrite El in Z0. now rewrite Z0.
    - unfold proper, GetStridesAndContig in *. destruct (dims a) as [|d [|d1 ds]]; cbn [length] in *; [congruence| |lia]. destruct (strides a) as [|s0 [|s1 ss]]; try discriminate. cbn in W. congruence. }
  split; [exact G|]. unfold accepted_stride. rewrite G. reflexivity.
Qed.
Print Assumptions C45_complete_partial.

(** an array with no dimension of length 0 or 1 that is accepted is visited in C order with the returned stride, exactly when it has one
    dimension, or its last stride is smaller than its first, or all its strides are 0 *)
Theorem C45_sound_partial : forall a s, proper a -> Forall (fun d => 2 <= d) (dims a) -> accepted_stride a = Some s ->
  (walks_in_c_order a s <-> (length (dims a) <= 1)%nat \/ Z.abs (last_stride a) < Z.abs (first_stride a) \/ (forall x, In x (strides a) -> x = 0)).
Proof.
  intros a s P B Acc. pose proof B as B0. change (big (dims a)) in B0. unfold accepted_stride in Acc.
  destruct (Nat.le_gt_cases 2 (length (dims a))) as [L|L].
  2:{ split; [intros _; left; lia|]. intros _. unfold proper, GetStridesAndContig, walks_in_c_order in *. destruct (dims a) as [|d [|d1 ds]]; cbn [length] in *; [| |lia].
      - destruct (strides a); [|discriminate]. intros is_ Hi. inversion Hi. reflexivity.
      - destruct (strides a) as [|s0 [|s1 ss]]; try discriminate. cbn in Acc. injection Acc as <-. intros is_ Hi. inversion Hi as [|? i ? is' Hi1 Hi2]; subst. inversion Hi2; subst. cbn [offset c_number prod]. lia. }
  assert (Hn : dims a <> []) by (destruct (dims a); [cbn in L; lia|discriminate]).
  split.
  - intros W. apply (c_walks_iff a s P B0) in W. destruct (c_first a s P B0 L W) as (q & Hq & Ef & El).
    destruct (Z.eq_dec s 0) as [->|Hs]; [right; right|right; left; rewrite Ef, El, Z.abs_mul; nia].
    intros x Hx. apply in_rev in Hx. rewrite W in Hx. clear - Hx. induction (rev (dims a)) as [|d ds IH]; [destruct Hx|]. cbn [f_strides] in Hx. rewrite Z.mul_0_l in Hx. destruct Hx as [<-|Hx]; [reflexivity|now apply IH].
  - intros [Hl|[Hlt|Hz]]; [lia| |].
    + rewrite gsc_two in Acc by (unfold proper in P; lia). destruct (Z.eqb_spec (last_stride a) (first_stride a)) as [E|_]; [rewrite E in Hlt; lia|].
      replace (Z.abs (last_stride a) <? Z.abs (first_stride a)) with true in Acc by (symmetry; now apply Z.ltb_lt).
      destruct (Z.eqb_spec (walk (last_stride a) (rev (dims a)) (rev (strides a))) 0) as [E0|Hw].
      * cbn [negb andb] in Acc. injection Acc as <-. apply c_walks_if; [exact P|]. now apply c_walk_zero.
      * cbn [negb andb] in Acc. destruct (is_c_contiguous a) eqn:Ec; [|discriminate]. exfalso. apply Hw. apply c_walk_zero; [exact P|exact Hn|].
        unfold is_c_contiguous in Ec. apply orb_true_iff in Ec. destruct Ec as [C|C].
        { apply existsb_exists in C. destruct C as (d & Hd & E0). apply Z.eqb_eq in E0. rewrite Forall_forall in B. specialize (B d Hd). lia. }
        assert (K : forall ds ss x, big ds -> length ss = length ds -> c_contig x ds ss = true -> ss = f_strides x ds).
        { clear. induction ds as [|d ds IH]; intros ss x B L C; destruct ss as [|s0 ss]; try discriminate; [reflexivity|]. cbn [c_contig] in C. apply andb_true_iff in C. destruct C as [C1 C2].
          inversion B; subst. injection L as L. cbn [f_strides]. f_equal; [|now apply IH]. apply orb_true_iff in C1. destruct C1 as [C1|C1]; apply Z.eqb_eq in C1; lia. }
        apply K in C; [|now apply Forall_rev|rewrite !rev_length; exact P]. destruct (c_first a (itemsize a) P B0 L C) as (q & Hq & Ef & El). now rewrite El.
    + assert (Ez : first_stride a = 0 /\ last_stride a = 0).
      { unfold first_stride, last_stride. unfold proper in P. destruct (strides a) as [|s0 ss] eqn:Es; [destruct (dims a); cbn in *; lia|]. split; [apply Hz; now left|].
        apply Hz. rewrite (app_removelast_last 0 (l := s0 :: ss)) at 2 by discriminate. apply in_or_app. right. now left. }
      rewrite gsc_two in Acc by (unfold proper in P; lia). destruct Ez as [E1 E2]. rewrite E1, E2 in Acc. cbn in Acc. injection Acc as <-.
      intros is_ Hi. rewrite Z.mul_0_r. clear - Hz. revert is_. induction (strides a) as [|x ss IH]; intros [|i is_]; cbn [offset]; try reflexivity. rewrite (Hz x (or_introl eq_refl)), IH by (intros y Hy; apply Hz; now right). lia.
Qed.
Print Assumptions C45_sound_partial.

(** the remaining accepted arrays with |first| < |last|: the walk visits the elements in Fortran order instead *)
Theorem C45_fortran : forall a, proper a -> dims a <> [] -> Z.abs (first_stride a) <= Z.abs (last_stride a) -> first_stride a <> last_stride a ->
  fst (GetStridesAndContig a) = 0 -> walks_in_f_order a (snd (GetStridesAndContig a)).
Proof.
  intros a P Hn Hle Hne G. assert (L : (2 <= length (strides a))%nat).
  { unfold first_stride, last_stride in *. unfold proper in P. destruct (strides a) as [|s0 [|s1 ss]]; cbn [length hd last] in *; [destruct (dims a); [congruence|discriminate]|congruence|lia]. }
  rewrite gsc_two in * by exact L. destruct (Z.eqb_spec (last_stride a) (first_stride a)) as [E|_]; [congruence|].
  replace (Z.abs (last_stride a) <? Z.abs (first_stride a)) with false in * by (symmetry; apply Z.ltb_ge; exact Hle). cbn [fst snd] in *.
  assert (E : strides a = f_strides (first_stride a) (dims a)) by (apply f_walk_zero; [exact P|exact Hn|lia]).
  intros is_ Hi. rewrite E at 1. now apply f_strides_offset.
Qed.

(** C45 as stated is false in three ways. *)
(** a[:, np.newaxis] of five int64: accepted (NumPy calls it C-contiguous) with stride 0, so every element read is the first one *)
Theorem C45_newaxis_refuted : let a := mkLayout [5; 1] [8; 0] 8 in
  proper a /\ accepted_stride a = Some 0 /\ inside (dims a) [3; 0] /\ offset (strides a) [3; 0] = 24 /\ c_number (dims a) [3; 0] * 0 = 0.
Proof. repeat split; repeat constructor; lia. Qed.
(** sliding_window_view(a, 2) of three windows: accepted with stride 8; the walk passes over 6 consecutive items of a 4-item array *)
Theorem C45_window_refuted : let a := mkLayout [3; 2] [8; 8] 8 in
  proper a /\ accepted_stride a = Some 8 /\ (forall is_, inside (dims a) is_ -> offset (strides a) is_ <= 24) /\
  (array_length a - 1) * 8 = 40 /\ ~ exists s, walks_in_c_order a s.
Proof.
  split; [reflexivity|]. split; [reflexivity|]. split; [|split; [reflexivity|]].
  - intros is_ H. cbn in *. inversion H as [|? i ? is' Hi H']; subst. inversion H' as [|? j ? ? Hj H'']; subst. inversion H''; subst. cbn [offset]. lia.
  - intros (s & W). pose proof (W [0; 1] ltac:(repeat constructor; lia)) as W1. pose proof (W [1; 0] ltac:(repeat constructor; lia)) as W2. cbn in W1, W2. lia.
Qed.
(** a Fortran-ordered 2x3 array: accepted, visited in the wrong order *)
Theorem C45_fortran_refuted : let a := mkLayout [2; 3] [8; 16] 8 in
  proper a /\ accepted_stride a = Some 8 /\ ~ exists s, walks_in_c_order a s.
Proof.
  split; [reflexivity|]. split; [reflexivity|]. intros (s & W). pose proof (W [0; 1] ltac:(repeat constructor; lia)) as W1. pose proof (W [1; 0] ltac:(repeat constructor; lia)) as W2. cbn in W1, W2. lia.
Qed.

(** a 4x3x5 C-ordered view of every second item meets the hypotheses of both directions *)
Example C45_nonvacuous : let a := mkLayout [4; 3; 5] [240; 80; 16] 8 in
  proper a /\ Forall (fun d => 2 <= d) (dims a) /\ accepted_stride a = Some 16 /\ walks_in_c_order a 16.
Proof.
  cbv zeta. assert (P : proper (mkLayout [4; 3; 5] [240; 80; 16] 8)) by reflexivity. split; [exact P|]. split; [repeat constructor; lia|]. split; [reflexivity|]. now apply c_walks_if.
Qed.
