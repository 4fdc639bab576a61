(** Alloc_Props.v - C47: the guarded allocator over every history of allocations, writes and frees. *)
From Verif Require Import Base Kernel_Model Kernel_Proofs Alloc_Model.

(** ---------- specification: what a correct program may do, told from the pointers it holds ---------- *)
(** the pointers held, with the sizes asked for; changed only by what the program sees *)
Definition held_after (o : op) (held : list (Z * Z)) : list (Z * Z) :=
  match o with
  | Alloc size (Some b) => (snd (FmAlloc size (Some b) (mkHeap (fun _ => 0) [] [] 0 0 0 0 0)), size) :: held
  | Free p => filter (fun e => negb (fst e =? p)) held
  | _ => held
  end.
(** a size malloc can be asked for without wrap-around; a write inside a held area; a free of a held pointer, or of NULL *)
Definition allowed (o : op) (held : list (Z * Z)) (h : heap) : Prop :=
  match o with
  | Alloc size ans => 0 <= size /\ size + 16 < 2 ^ 64 /\ malloc_may h (malloc_arg size) ans
  | Free p => p = 0 \/ exists size, In (p, size) held
  | Write a v => 0 <= v < 256 /\ exists p size, In (p, size) held /\ p <= a < p + size
  end.
(** histories of a correct program, newest operation first *)
Fixpoint correct (newest_first : list op) (h : heap) (held : list (Z * Z)) (m0 : bytes) : Prop :=
  match newest_first with
  | [] => h = mkHeap m0 [] [] 0 0 0 0 0 /\ held = []
  | o :: l => exists h1 held1, correct l h1 held1 m0 /\ allowed o held1 h1 /\ h = do o h1 /\ held = held_after o held1
  end.
Definition total (held : list (Z * Z)) : Z := fold_right (fun e s => snd e + s) 0 held.

(** ---------- invariant ---------- *)
Definition apart (x y : Z * Z) : Prop := fst x + snd x <= fst y \/ fst y + snd y <= fst x.
Definition inv (h : heap) (held : list (Z * Z)) : Prop :=
  live h = map (fun e => (fst e - 16, snd e + 16)) held /\
  (forall p size, In (p, size) held -> 0 <= size < 2 ^ 64 /\ 16 < p /\ p mod 16 = 0 /\ p + size <= 2 ^ 64 /\ ld 8 (mem h) (p - 16) = size /\ ld 8 (mem h) (p - 8) = MAGIC_PAGE_GUARD) /\
  ForallOrdPairs apart (live h) /\
  logerror h = 0 /\ TotalAllocs h - TotalFree h = Z.of_nat (length held) /\ TotalMemoryAllocated h - TotalMemoryFreed h = total held.

Lemma fop_in (l : list (Z * Z)) x y : ForallOrdPairs apart l -> In x l -> In y l -> x = y \/ apart x y.
Proof. intros F Hx Hy. destruct (ForallOrdPairs_In F x y Hx Hy) as [E|[A|A]]; [now left|now right|right]. unfold apart in *. lia. Qed.
Lemma fop_nodup (l : list (Z * Z)) : (forall x, In x l -> 0 < snd x) -> ForallOrdPairs apart l -> NoDup (map fst l).
Proof.
  induction l as [|x l IH]; intros Hp F; cbn [map]; [constructor|]. inversion F as [|a b Hf F']; subst. constructor; [|apply IH; [intros y Hy; apply Hp; now right|exact F']].
  intros Hin. apply in_map_iff in Hin. destruct Hin as (y & E & Hy). rewrite Forall_forall in Hf. specialize (Hf y Hy).
  pose proof (Hp x (or_introl eq_refl)). pose proof (Hp y (or_intror Hy)). unfold apart in Hf. lia.
Qed.
Lemma remove_block_map p : forall held, NoDup (map fst held) ->
  remove_block (p - 16) (map (fun e => (fst e - 16, snd e + 16)) held) = map (fun e => (fst e - 16, snd e + 16)) (filter (fun e => negb (fst e =? p)) held).
Proof.
  induction held as [|[q n] held IH]; intros N; [reflexivity|]. cbn [map fst snd] in N. inversion N as [|x y Hni N']; subst. cbn [map remove_block filter fst snd].
  destruct (Z.eqb_spec (q - 16) (p - 16)) as [E|E].
  - replace (q =? p) with true by (symmetry; apply Z.eqb_eq; lia). cbn [negb]. assert (q = p) as -> by lia.
    f_equal. clear - Hni. induction held as [|[r n] held IH]; [reflexivity|]. cbn [filter fst]. destruct (Z.eqb_spec r p) as [->|]; cbn [negb]; [exfalso; apply Hni; now left|].
    f_equal. apply IH. intros H. apply Hni. now right.
  - replace (q =? p) with false by (symmetry; apply Z.eqb_neq; lia). cbn [negb map fst snd]. now rewrite IH.
Qed.
Lemma filter_total p size : forall held, NoDup (map fst held) -> In (p, size) held ->
  total (filter (fun e => negb (fst e =? p)) held) = total held - size /\ Z.of_nat (length (filter (fun e => negb (fst e =? p)) held)) = Z.of_nat (length held) - 1.
Proof.
  assert (K : forall held, ~ In p (map fst held) -> filter (fun e : Z * Z => negb (fst e =? p)) held = held).
  { induction held as [|[r n] held IH]; intros H; [reflexivity|]. cbn [filter fst]. destruct (Z.eqb_spec r p) as [->|]; cbn [negb]; [exfalso; apply H; now left|]. f_equal. apply IH. intros C. apply H. now right. }
  induction held as [|[r n] held IH]; intros N Hin; [destruct Hin|]. cbn [map fst] in N. inversion N as [|x y Hni N']; subst. cbn [filter fst]. destruct Hin as [E|Hin].
  - injection E as -> ->. rewrite Z.eqb_refl. cbn [negb]. rewrite K by exact Hni. cbn [total fold_right snd length]. fold (total held). lia.
  - destruct (Z.eqb_spec r p) as [->|Hne]; [exfalso; apply Hni; apply (in_map fst held (p, size) Hin)|]. cbn [negb]. destruct (IH N' Hin) as [A B].
    cbn [total fold_right snd length]. fold (total held). fold (total (filter (fun e => negb (fst e =? p)) held)). lia.
Qed.
Lemma inv_nodup h held : inv h held -> NoDup (map fst held).
Proof.
  intros (L & P & F & _). rewrite L in F. apply fop_nodup in F.
  - rewrite map_map in F. cbn [fst] in F. assert (E : map (fun x : Z * Z => fst x - 16) held = map (fun z => z - 16) (map fst held)) by now rewrite map_map. rewrite E in F. eapply NoDup_map_inv. exact F.
  - intros x Hx. apply in_map_iff in Hx. destruct Hx as ([p n] & <- & Hp). cbn. destruct (P p n Hp). lia.
Qed.
Lemma magic_pat : pat 8 MAGIC_PAGE_GUARD. Proof. unfold pat, MAGIC_PAGE_GUARD. cbn. lia. Qed.
Lemma fop_filter {A} (R : A -> A -> Prop) f l : ForallOrdPairs R l -> ForallOrdPairs R (filter f l).
Proof.
  induction 1 as [|a l Hf F IH]; cbn [filter]; [constructor|]. destruct (f a); [|exact IH]. constructor; [|exact IH].
  rewrite Forall_forall in *. intros x Hx. apply filter_In in Hx. now apply Hf.
Qed.
Lemma fop_map_filter f (held : list (Z * Z)) : ForallOrdPairs apart (map (fun e => (fst e - 16, snd e + 16)) held) -> ForallOrdPairs apart (map (fun e => (fst e - 16, snd e + 16)) (filter f held)).
Proof.
  induction held as [|x held IH]; cbn [map filter]; intros F; [constructor|]. inversion F as [|a l Hf F']; subst. destruct (f x); [|now apply IH]. cbn [map]. constructor; [|now apply IH].
  rewrite Forall_forall in *. intros y Hy. apply Hf. apply in_map_iff in Hy. destruct Hy as (z & <- & Hz). apply filter_In in Hz. now apply (in_map (fun e => (fst e - 16, snd e + 16))).
Qed.
Lemma held_apart h held p n q k : inv h held -> In (p, n) held -> In (q, k) held -> (p, n) = (q, k) \/ p + n <= q - 16 \/ q + k <= p - 16.
Proof.
  intros (L & _ & F & _) Hp Hq. rewrite L in F.
  destruct (fop_in _ _ _ F (in_map _ _ _ Hp) (in_map _ _ _ Hq)) as [E|A]; cbn [fst snd] in *; [left; injection E; intros; f_equal; lia|right; unfold apart in A; cbn [fst snd] in A; lia].
Qed.

Lemma inv_step o h held : inv h held -> allowed o held h -> inv (do o h) (held_after o held).
Proof.
  intros I Hal. pose proof (inv_nodup h held I) as Nd. destruct o as [size [b|]|p|a v]; cbn [do fst FmAlloc held_after snd allowed] in *; [| exact I | |].
  - destruct Hal as (H0 & H1 & Hb & Hm & Hend & Hsep). destruct I as (L & P & F & E0 & E1 & E2).
    assert (Ea : malloc_arg size = size + 16) by (unfold malloc_arg; apply Z.mod_small; lia). rewrite Ea in *. rewrite L in Hsep.
    assert (Hold : forall p n, In (p, n) held -> b + (size + 16) <= p - 16 \/ p + n <= b).
    { intros p n Hp. specialize (Hsep (p - 16) (n + 16) (in_map (fun e => (fst e - 16, snd e + 16)) held (p, n) Hp)). lia. }
    assert (Ps : pat 8 size) by (unfold pat; cbn; lia).
    unfold inv. cbn [live mem logerror TotalAllocs TotalFree TotalMemoryAllocated TotalMemoryFreed length map fst snd].
    replace (b + 16 - 16) with b by lia. split; [now rewrite L|]. split; [|split].
    + intros p n [E|Hp].
      * injection E as <- <-. replace (b + 16 - 16) with b by lia. replace (b + 16 - 8) with (b + 8) by lia.
        split; [lia|]. split; [lia|]. split; [rewrite Z.add_mod, Hm by lia; reflexivity|]. split; [lia|]. split; [rewrite ld_st_other by lia; now apply ld_st|]. apply ld_st; [lia|apply magic_pat].
      * destruct (P p n Hp) as (A & B & C & D & G1 & G2). specialize (Hold p n Hp). repeat (split; [lia||assumption|]).
        split; (rewrite !ld_st_other by lia; assumption).
    + constructor; [|exact F]. rewrite Forall_forall. intros [q k] Hq. rewrite L in Hq. specialize (Hsep q k Hq). unfold apart. cbn [fst snd]. lia.
    + split; [exact E0|]. unfold total in *. cbn [fold_right snd]. lia.
  - unfold FmFree. destruct (Z.eqb_spec p 0) as [->|Hp0].
    + assert (Ef : filter (fun e : Z * Z => negb (fst e =? 0)) held = held); [|rewrite Ef; exact I].
      destruct I as (_ & P & _). clear Hal Nd. induction held as [|[q k] held IH]; [reflexivity|]. cbn [filter fst].
      destruct (P q k (or_introl eq_refl)) as (_ & B & _). replace (q =? 0) with false by (symmetry; apply Z.eqb_neq; lia). cbn [negb]. f_equal. apply IH. intros p n Hp. apply P. now right.
    + destruct Hal as [|(size & Hin)]; [contradiction|]. pose proof (held_apart h held) as HA. pose proof I as I'. destruct I as (L & P & F & E0 & E1 & E2).
      destruct (P p size Hin) as (A & B & C & D & G1 & G2). replace (p - 16 + 8) with (p - 8) by lia. rewrite G2, Z.eqb_refl.
      destruct (filter_total p size held Nd Hin) as [T1 T2].
      unfold inv. cbn [live mem logerror TotalAllocs TotalFree TotalMemoryAllocated TotalMemoryFreed]. rewrite L, remove_block_map by exact Nd.
      split; [reflexivity|]. split; [|split; [rewrite L in F; now apply fop_map_filter|split; [exact E0|]; rewrite G1; lia]].
      intros q k Hq. apply filter_In in Hq. destruct Hq as [Hq Hne]. cbn [fst] in Hne. apply negb_true_iff, Z.eqb_neq in Hne. destruct (P q k Hq) as (A' & B' & C' & D' & G1' & G2').
      destruct (HA p size q k I' Hin Hq) as [E|S]; [injection E; intros; exfalso; apply Hne; lia|].
      repeat (split; [lia||assumption|]). split; (rewrite ld_st_other by lia; assumption).
  - destruct Hal as (Hv & p & size & Hin & Ha). pose proof I as I'. destruct I as (L & P & F & E0 & E1 & E2).
    unfold inv. cbn [live mem logerror TotalAllocs TotalFree TotalMemoryAllocated TotalMemoryFreed]. split; [exact L|]. split; [|auto].
    intros q k Hq. destruct (P q k Hq) as (A' & B' & C' & D' & G1' & G2').
    assert (Hout : a < q - 16 \/ q <= a). { destruct (held_apart h held p size q k I' Hin Hq) as [E|S]; [injection E; intros; lia|lia]. }
    repeat (split; [lia||assumption|]). split; (erewrite ld_ext; [eassumption|lia|]); intros x Hx; unfold zupd; destruct (Z.eqb_spec x a); try lia; reflexivity.
Qed.
Lemma correct_inv l : forall h held m0, correct l h held m0 -> inv h held.
Proof.
  induction l as [|o l IH]; intros h held m0 H; cbn [correct] in H.
  - destruct H as [-> ->]. unfold inv. cbn. split; [reflexivity|]. split; [intros p size []|]. split; [constructor|]. repeat split.
  - destruct H as (h1 & held1 & C & Al & -> & ->). apply inv_step; [eapply IH; exact C|exact Al].
Qed.

(** ---------- C47 ---------- *)
(** an allocation after any correct history (sizes below 2^64 - 16): NULL only if malloc failed; otherwise a 16-byte aligned pointer,
    whose size usable bytes lie inside the block malloc gave for it and outside every area still held *)
Theorem C47_alloc_partial : forall l h held m0 size ans, correct l h held m0 -> allowed (Alloc size ans) held h ->
  let p := snd (FmAlloc size ans h) in
  (ans = None -> p = 0) /\
  (forall b, ans = Some b -> p <> 0 /\ p mod 16 = 0 /\ b <= p /\ p + size <= b + malloc_arg size /\
     (forall q k, In (q, k) held -> p + size <= q \/ q + k <= p)).
Proof.
  intros l h held m0 size ans C Al p. apply correct_inv in C. subst p. split; [intros ->; reflexivity|]. intros b ->. cbn [FmAlloc snd] in *.
  destruct Al as (H0 & H1 & Hb & Hm & Hend & Hsep). assert (Ea : malloc_arg size = size + 16) by (unfold malloc_arg; apply Z.mod_small; lia). rewrite Ea in *.
  split; [lia|]. split; [rewrite Z.add_mod, Hm by lia; reflexivity|]. split; [lia|]. split; [lia|].
  intros q k Hq. destruct C as (L & _). rewrite L in Hsep. specialize (Hsep (q - 16) (k + 16) (in_map (fun e => (fst e - 16, snd e + 16)) held (q, k) Hq)). lia.
Qed.
Print Assumptions C47_alloc_partial.
(** freeing a held pointer, after any correct history, calls free() once, with the very block malloc returned for it (the live blocks of
    malloc are always those of the held pointers, 16 bytes below and 16 bytes longer); no error is logged; freeing NULL does nothing *)
Theorem C47_free : forall l h held m0 p, correct l h held m0 ->
  live h = map (fun e => (fst e - 16, snd e + 16)) held /\
  (forall size, In (p, size) held -> freelog (FmFree p h) = (p - 16) :: freelog h /\ In (p - 16, size + 16) (live h) /\
     (forall b, In b (live (FmFree p h)) <-> In b (live h) /\ fst b <> p - 16) /\ logerror (FmFree p h) = logerror h) /\
  (p = 0 -> FmFree p h = h).
Proof.
  intros l h held m0 p C. pose proof (correct_inv _ _ _ _ C) as I. pose proof I as (L & P & _). split; [exact L|]. split; [|intros ->; reflexivity].
  intros size Hin. destruct (P p size Hin) as (A & B & Cc & D & G1 & G2). unfold FmFree. replace (p =? 0) with false by (symmetry; apply Z.eqb_neq; lia).
  replace (p - 16 + 8) with (p - 8) by lia. rewrite G2, Z.eqb_refl. cbn [freelog live logerror]. split; [reflexivity|].
  split; [rewrite L; apply (in_map (fun e => (fst e - 16, snd e + 16)) held (p, size) Hin)|]. split; [|reflexivity].
  intros b. rewrite L, remove_block_map by (eapply inv_nodup; exact I). rewrite !in_map_iff. split.
  - intros ([q k] & <- & Hq). apply filter_In in Hq. destruct Hq as [Hq Hne]. cbn [fst] in *. apply negb_true_iff, Z.eqb_neq in Hne. split; [exists (q, k); auto|lia].
  - intros (([q k] & <- & Hq) & Hne). cbn [fst] in Hne. exists (q, k). split; [reflexivity|]. apply filter_In. split; [exact Hq|]. cbn [fst]. apply negb_true_iff, Z.eqb_neq. lia.
Qed.
Print Assumptions C47_free.
(** the statistics are exact: allocations minus frees is the number of pointers held, bytes allocated minus freed their total size *)
Theorem C47_counters : forall l h held m0, correct l h held m0 ->
  TotalAllocs h - TotalFree h = Z.of_nat (length held) /\ TotalMemoryAllocated h - TotalMemoryFreed h = total held /\ logerror h = 0.
Proof. intros l h held m0 C. apply correct_inv in C. destruct C as (_ & _ & _ & E0 & E1 & E2). auto. Qed.

(** false for sizes of 2^64 - 16 and more: the sum wraps, malloc is asked for fewer bytes than the guard words need, and the guard is
    written past the end of the block *)
Theorem C47_refuted : forall m, exists size, 0 <= size < 2 ^ 64 /\ malloc_arg size = 1 /\
  forall b, let h' := fst (FmAlloc size (Some b) (mkHeap m [] [] 0 0 0 0 0)) in live h' = [(b, 1)] /\ ld 8 (mem h') (b + 8) = MAGIC_PAGE_GUARD.
Proof. intros m. exists (2 ^ 64 - 15). split; [lia|]. split; [reflexivity|]. intros b. split; [reflexivity|]. cbn [FmAlloc fst mem]. apply ld_st; [lia|apply magic_pat]. Qed.

(** a history with two blocks held at once, a write, a free and a failed allocation meets the hypotheses *)
Example C47_nonvacuous : exists h held, correct [Alloc 7 None; Free 4112; Write 8225 200; Alloc 100 (Some 8192); Alloc 40 (Some 4096)] h held (fun _ => 1) /\ held = [(8208, 100)].
Proof.
  eexists. eexists. split.
  - cbn [correct]. do 2 eexists. split; [do 2 eexists; split; [do 2 eexists; split; [do 2 eexists; split; [do 2 eexists; split; [split; reflexivity|]|]|]|]|].
    1-5: split; [|split; reflexivity]; cbn [allowed].
    + split; [lia|]. split; [lia|]. unfold malloc_may. split; [lia|]. split; [reflexivity|]. split; [change (malloc_arg 40) with 56; lia|]. intros b' n' [].
    + split; [lia|]. split; [lia|]. unfold malloc_may. change (malloc_arg 100) with 116. split; [lia|]. split; [reflexivity|]. split; [lia|]. intros b' n' H. cbn in H. destruct H as [H|[]]. injection H as <- <-. change (malloc_arg 40) with 56. lia.
    + split; [lia|]. exists 8208, 100. split; [now left|lia].
    + right. exists 40. cbn. auto.
    + split; [lia|]. split; [lia|exact I].
  - reflexivity.
Qed.
