(** GetItem_Props.v - C22, C23, C24: getitem with integer indices. *)
From Verif Require Import Base Threads_Model Threads_Proofs Threads_Counter_Proofs Jobs_Model Jobs_Proofs Jobs_Call_Proofs GetItem_Model.

(** ======== specification ======== *)
(** Python indexing of a sequence of length n: negative indices count from the end; None = out of range *)
Definition python_index (n i : Z) : option Z :=
  if (0 <=? i) && (i <? n) then Some i else if (- n <=? i) && (i <? 0) then Some (i + n) else None.
(** unsigned indexing *)
Definition unsigned_index (n i : Z) : option Z := if (0 <=? i) && (i <? n) then Some i else None.

(** [taken pick n a inp sV def i v]: v is element pick i of the array at [inp] with stride sV, or the default *)
Definition item_at {V} (val : Z -> V) (inp sV : Z) (def : V) (k : option Z) : V :=
  match k with Some k => val (inp + k * sV) | None => def end.

(** the output has the right item in each of the n slots, and nothing else changed *)
Definition items_result {V} (n out isz : Z) (item : Z -> V) (m m' : Z -> V) : Prop :=
  (forall i, 0 <= i < n -> m' (out + i * isz) = item i) /\
  (forall a, (forall i, 0 <= i < n -> a <> out + i * isz) -> m' a = m a).

(** byte-level version for items of any size *)
Definition bytes_result {V} (n out isz : Z) (byte : Z -> Z -> V) (m m' : Z -> V) : Prop :=
  (forall i b, 0 <= i < n -> 0 <= b < isz -> m' (out + i * isz + b) = byte i b) /\
  (forall a, ~ (out <= a < out + n * isz) -> m' a = m a).

(** ======== lemmas ======== *)
Lemma sgn_range w u : 0 < w -> 0 <= u < 2 ^ w -> - 2 ^ (w - 1) <= sgn w u < 2 ^ (w - 1).
Proof.
  intros Hw Hu. assert (2 ^ w = 2 * 2 ^ (w - 1)) by (rewrite <- Z.pow_succ_r by lia; f_equal; lia).
  unfold sgn. destruct (Z.ltb_spec u (2 ^ (w - 1))); lia.
Qed.

Lemma sgn_small w u : u < 2 ^ (w - 1) -> sgn w u = u.
Proof. intros H. unfold sgn. destruct (Z.ltb_spec u (2 ^ (w - 1))); lia. Qed.

Lemma int_src_spec w n u : int_src w n u = python_index n (sgn w u).
Proof.
  unfold int_src, python_index. set (i := sgn w u). cbv zeta.
  destruct (Z.geb_spec i (- n)), (Z.ltb_spec i n), (Z.geb_spec i 0), (Z.leb_spec 0 i), (Z.leb_spec (- n) i), (Z.ltb_spec i 0);
    cbn [andb]; try lia; try reflexivity; f_equal; lia.
Qed.

Section S.
  Context {V : Type} (g : getargs V).
  Hypothesis Hisz : 0 < ga_isz g.

  Lemma vstep_sV : vstep g = ga_sV g.
  Proof. unfold vstep, contig. destruct (Z.eqb_spec (ga_isz g) (ga_sV g)); [destruct (_ =? _); cbn; lia|reflexivity]. Qed.
  Lemma istep_sI : istep g = ga_sI g.
  Proof. unfold istep, contig. destruct (_ =? _); [destruct (Z.eqb_spec (ga_w g / 8) (ga_sI g)); cbn; lia|reflexivity]. Qed.

  (** item i of the result as the code computes it *)
  Definition item (def : V) (i : Z) : V :=
    item_at (ga_val g) (ga_values g) (ga_sV g) def (src g (ga_raw g (ga_index g + i * ga_sI g))).

  Lemma item_ws_In def st len a v : In (a, v) (item_ws g def st len) <->
    exists i, 0 <= i < len /\ a = ga_out g + st * ga_sV g + i * ga_isz g /\ v = item def (st + i).
  Proof.
    unfold item_ws. rewrite in_map_iff. split.
    - intros (i & [= <- <-] & Hi). apply zrange_In in Hi. exists i. split; [exact Hi|]. split; [reflexivity|].
      unfold item, item_at. rewrite istep_sI, vstep_sV.
      replace (ga_index g + st * ga_sI g + i * ga_sI g) with (ga_index g + (st + i) * ga_sI g) by lia. reflexivity.
    - intros (i & Hi & -> & ->). exists i. split; [|apply zrange_In, Hi].
      unfold item, item_at. rewrite istep_sI, vstep_sV.
      replace (ga_index g + st * ga_sI g + i * ga_sI g) with (ga_index g + (st + i) * ga_sI g) by lia. reflexivity.
  Qed.

  Lemma item_call def n h m m' : 0 <= n -> (h = Alone \/ ga_sV g = ga_isz g) ->
    chunk_call (wprog (item_ws g def)) tt n h m m' ->
    items_result n (ga_out g) (ga_isz g) (item def) m m'.
  Proof.
    intros Hn Hh Hc.
    assert (Hst : forall st len, piece_of n h st len -> st * ga_sV g = st * ga_isz g).
    { intros st len Hp. destruct Hh as [->|E]; [destruct Hp as [-> _]; lia|now rewrite E]. }
    destruct (wprog_call n h (item_ws g def) (fun a => item def ((a - ga_out g) / ga_isz g)) m m' Hn) as [A B].
    - intros st len a v Hp Hin. apply item_ws_In in Hin. destruct Hin as (i & Hi & -> & ->).
      rewrite (Hst _ _ Hp). f_equal.
      replace (ga_out g + st * ga_isz g + i * ga_isz g - ga_out g) with ((st + i) * ga_isz g) by lia. now rewrite Z.div_mul by lia.
    - exact Hc.
    - split.
      + intros i Hi. destruct (piece_cover n h i Hi) as (st & len & Hp & Hr).
        apply (A st len); [exact Hp|]. apply item_ws_In. exists (i - st). split; [lia|].
        rewrite (Hst _ _ Hp). split; [lia|]. f_equal. lia.
      + intros a Ha. apply B. intros st len v Hp Hin. apply item_ws_In in Hin. destruct Hin as (i & Hi & -> & _).
        destruct (piece_range n h st len Hn Hp) as (R1 & R2 & R3). apply (Ha (st + i)); [lia|].
        rewrite (Hst _ _ Hp). lia.
  Qed.

  Definition vbyte (def : Z -> V) (i b : Z) : V :=
    match src g (ga_raw g (ga_index g + i * ga_sI g)) with
    | Some k => ga_val g (ga_values g + k * ga_sV g + b) | None => def b end.

  Lemma wide8_bound : 0 <= 8 * wide8 g <= ga_isz g.
  Proof. unfold wide8. destruct (Z.gtb_spec (ga_isz g) 8); lia. Qed.

  Lemma var_elem_In def dst i a v :
    In (a, v) (var_elem g def dst (ga_raw g (ga_index g + i * ga_sI g))) <->
    exists b, 0 <= b < ga_isz g /\ a = dst + b /\ v = vbyte def i b.
  Proof.
    pose proof wide8_bound as HW. unfold var_elem, vbyte. rewrite vstep_sV. cbv zeta. rewrite in_app_iff, in_flat_map.
    split.
    - intros [(k & Hk & Hin)|Hin]; apply in_map_iff in Hin.
      + destruct Hin as (j & [= <- <-] & Hj). apply zrange_In in Hk, Hj. exists (8 * k + j). split; [lia|]. split; [lia|reflexivity].
      + destruct Hin as (b & [= <- <-] & Hb). apply zrange_In in Hb. exists b. split; [lia|]. auto.
    - intros (b & Hb & -> & ->). destruct (Z.ltb_spec b (8 * wide8 g)) as [Hlt|Hge].
      + left. exists (b / 8). rewrite zrange_In. split; [lia|]. apply in_map_iff. exists (b mod 8). rewrite zrange_In.
        replace (8 * (b / 8) + b mod 8) with b by lia. split; [f_equal; lia|lia].
      + right. apply in_map_iff. exists b. rewrite zrange_In. split; [reflexivity|lia].
  Qed.

  Lemma var_ws_In def st len a v : In (a, v) (var_ws g def st len) <->
    exists i b, 0 <= i < len /\ 0 <= b < ga_isz g /\ a = ga_out g + st * ga_sV g + i * ga_isz g + b /\ v = vbyte def (st + i) b.
  Proof.
    unfold var_ws. rewrite in_flat_map. rewrite istep_sI. split.
    - intros (i & Hi & Hin). apply zrange_In in Hi.
      replace (ga_index g + st * ga_sI g + i * ga_sI g) with (ga_index g + (st + i) * ga_sI g) in Hin by lia.
      apply var_elem_In in Hin. destruct Hin as (b & Hb & -> & ->). exists i, b. auto.
    - intros (i & b & Hi & Hb & -> & ->). exists i. rewrite zrange_In. split; [exact Hi|].
      replace (ga_index g + st * ga_sI g + i * ga_sI g) with (ga_index g + (st + i) * ga_sI g) by lia.
      apply var_elem_In. exists b. auto.
  Qed.

  Lemma var_call def n h m m' : 0 <= n -> (h = Alone \/ ga_sV g = ga_isz g) ->
    chunk_call (wprog (var_ws g def)) tt n h m m' ->
    bytes_result n (ga_out g) (ga_isz g) (vbyte def) m m'.
  Proof.
    intros Hn Hh Hc.
    assert (Hst : forall st len, piece_of n h st len -> st * ga_sV g = st * ga_isz g).
    { intros st len Hp. destruct Hh as [->|E]; [destruct Hp as [-> _]; lia|now rewrite E]. }
    destruct (wprog_call n h (var_ws g def) (fun a => vbyte def ((a - ga_out g) / ga_isz g) ((a - ga_out g) mod ga_isz g)) m m' Hn) as [A B].
    - intros st len a v Hp Hin. apply var_ws_In in Hin. destruct Hin as (i & b & Hi & Hb & -> & ->).
      rewrite (Hst _ _ Hp).
      replace (ga_out g + st * ga_isz g + i * ga_isz g + b - ga_out g) with (b + (st + i) * ga_isz g) by lia.
      rewrite Z.div_add, Z.mod_add by lia. rewrite Z.div_small, Z.mod_small by lia. reflexivity.
    - exact Hc.
    - split.
      + intros i b Hi Hb. destruct (piece_cover n h i Hi) as (st & len & Hp & Hr).
        apply (A st len); [exact Hp|]. apply var_ws_In. exists (i - st), b. split; [lia|]. split; [exact Hb|].
        rewrite (Hst _ _ Hp). split; [lia|]. f_equal. lia.
      + intros a Ha. apply B. intros st len v Hp Hin. apply var_ws_In in Hin. destruct Hin as (i & b & Hi & Hb & -> & _).
        destruct (piece_range n h st len Hn Hp) as (R1 & R2 & R3). apply Ha.
        rewrite (Hst _ _ Hp). nia.
  Qed.
End S.

(** ======== C22 ======== *)
(** signed indices, fixed-size items: every slot of the result holds the Python-indexed item or the default, whatever the
    index width and strides when the call is not threaded, and for contiguous values also for every threaded execution *)
Theorem C22_int_getitem : forall V (g : getargs V) def n h m m',
  0 < ga_isz g -> 0 <= n -> ga_signed g = true ->
  (h = Alone \/ ga_sV g = ga_isz g) ->
  chunk_call (wprog (item_ws g def)) tt n h m m' ->
  items_result n (ga_out g) (ga_isz g)
    (fun i => item_at (ga_val g) (ga_values g) (ga_sV g) def
                      (python_index (ga_vlen g) (sgn (ga_w g) (ga_raw g (ga_index g + i * ga_sI g))))) m m'.
Proof.
  intros V g def n h m m' Hi Hn Hs Hh Hc. pose proof (item_call g Hi def n h m m' Hn Hh Hc) as [A B].
  split; [|exact B]. intros i Hr. rewrite (A i Hr). unfold item, src. rewrite Hs, int_src_spec. reflexivity.
Qed.
Print Assumptions C22_int_getitem.

(** the same for items of any size (strings, records), byte by byte *)
Theorem C22_int_getitem_bytes : forall V (g : getargs V) def n h m m',
  0 < ga_isz g -> 0 <= n -> ga_signed g = true ->
  (h = Alone \/ ga_sV g = ga_isz g) ->
  chunk_call (wprog (var_ws g def)) tt n h m m' ->
  bytes_result n (ga_out g) (ga_isz g)
    (fun i b => match python_index (ga_vlen g) (sgn (ga_w g) (ga_raw g (ga_index g + i * ga_sI g))) with
                | Some k => ga_val g (ga_values g + k * ga_sV g + b) | None => def b end) m m'.
Proof.
  intros V g def n h m m' Hi Hn Hs Hh Hc. pose proof (var_call g Hi def n h m m' Hn Hh Hc) as [A B].
  split; [|exact B]. intros i b Hr Hb. rewrite (A i b Hr Hb). unfold vbyte, src. rewrite Hs, int_src_spec. reflexivity.
Qed.
Print Assumptions C22_int_getitem_bytes.

(** reads stay inside: two value arrays that agree on their elements give the same result *)
Theorem C22_reads_only_elements : forall V (g : getargs V) (val' : Z -> V) def n h h' m m' m'',
  let g' := mkGA (ga_signed g) (ga_w g) (ga_raw g) (ga_index g) (ga_sI g) val' (ga_values g) (ga_vlen g) (ga_isz g) (ga_sV g) (ga_out g) in
  0 < ga_isz g -> 0 <= n -> ga_signed g = true ->
  (h = Alone \/ ga_sV g = ga_isz g) -> (h' = Alone \/ ga_sV g = ga_isz g) ->
  (forall k, 0 <= k < ga_vlen g -> ga_val g (ga_values g + k * ga_sV g) = val' (ga_values g + k * ga_sV g)) ->
  chunk_call (wprog (item_ws g def)) tt n h m m' ->
  chunk_call (wprog (item_ws g' def)) tt n h' m m'' ->
  forall i, 0 <= i < n -> m' (ga_out g + i * ga_isz g) = m'' (ga_out g + i * ga_isz g).
Proof.
  intros V g val' def n h h' m m' m'' g' Hi Hn Hs Hh Hh' Hag H1 H2 i Hr.
  destruct (C22_int_getitem V g def n h m m' Hi Hn Hs Hh H1) as [A _].
  destruct (C22_int_getitem V g' def n h' m m'' Hi Hn Hs Hh' H2) as [A' _].
  specialize (A i Hr). specialize (A' i Hr). cbn [g' ga_out ga_isz ga_val ga_values ga_sV ga_vlen ga_w ga_raw ga_index ga_sI] in A'.
  rewrite A, A'. clear A A'. cbn [g' ga_val ga_values ga_sV ga_vlen ga_w ga_raw ga_index ga_sI].
  set (k := python_index _ _). destruct k as [k'|] eqn:E; [|reflexivity]. cbn [item_at]. apply Hag.
  subst k. unfold python_index in E.
  repeat match type of E with context [if ?b then _ else _] => destruct b eqn:? end; inversion E; lia.
Qed.
Print Assumptions C22_reads_only_elements.

Example C22_nonvacuous :
  let g := mkGA true 8 (fun a => nth (Z.to_nat a) [0; 255; 4; 252; 5; 251] 0) 0 1 (fun a => 100 + a) 0 4 8 8 1000 in
  exists m', chunk_call (wprog (item_ws g (-7))) tt 6 Alone (fun _ => 0) m' /\
    map m' [1000; 1008; 1016; 1024; 1032; 1040] = [100; 124; -7; 100; -7; -7].
Proof. eexists. split; reflexivity. Qed.

Example C22_threaded_nonvacuous :
  let g := mkGA true 64 (fun a => a / 8) 0 8 (fun a => a) 0 100000 8 8 0 in
  exists sched m', chunk_call (wprog (item_ws g (-7))) tt 100000 (Threaded 3 false sched) (fun _ => 0) m' /\ m' (70000 * 8) = 70000 * 8.
Proof.
  intros g. destruct (chunk_call_can_return (wprog (item_ws g (-7))) tt 100000 3 false (fun _ => 0)) as (s & m' & H);
    [unfold WORK_ITEM_BIG, WORK_ITEM_CHUNK; lia|lia|].
  exists s, m'. split; [exact H|].
  destruct (C22_int_getitem _ g (-7) 100000 _ _ _ ltac:(cbn; lia) ltac:(lia) eq_refl ltac:(right; reflexivity) H) as [A _].
  specialize (A 70000 ltac:(lia)). cbn [ga_out ga_isz g] in A. rewrite Z.add_0_l in A. exact A.
Qed.

(** The default value: the object GetDefaultForType points to is smaller than the item for complex128, long double, records
    and long strings, so an out-of-range index there reads past it. *)
Theorem C22_default_read_refuted : ~ (forall t, npy_itemsize t <= default_object_size t).
Proof. intros H. specialize (H TComplex128). cbn in H. lia. Qed.
Print Assumptions C22_default_read_refuted.
Theorem C22_default_read_partial : forall t,
  (match t with TBool | TInt _ | TUInt _ | TFloat | TDouble | TComplex64 => True | TString s | TUnicode s => s <= 1024 | _ => False end) ->
  npy_itemsize t <= default_object_size t.
Proof. intros [] H; cbn; try lia; destruct H. Qed.
Print Assumptions C22_default_read_partial.

(** ======== C23 ======== *)
(** unsigned indices, fixed-size items: right when every index is below half its type's range *)
Theorem C23_uint_getitem_partial : forall V (g : getargs V) def n h m m',
  0 < ga_isz g -> 0 <= n -> ga_signed g = false ->
  (forall i, 0 <= i < n -> 0 <= ga_raw g (ga_index g + i * ga_sI g) < 2 ^ (ga_w g - 1)) ->
  (h = Alone \/ ga_sV g = ga_isz g) ->
  chunk_call (wprog (item_ws g def)) tt n h m m' ->
  items_result n (ga_out g) (ga_isz g)
    (fun i => item_at (ga_val g) (ga_values g) (ga_sV g) def (unsigned_index (ga_vlen g) (ga_raw g (ga_index g + i * ga_sI g)))) m m'.
Proof.
  intros V g def n h m m' Hi Hn Hs Hr Hh Hc. pose proof (item_call g Hi def n h m m' Hn Hh Hc) as [A B].
  split; [|exact B]. intros i Hir. rewrite (A i Hir). unfold item, src. rewrite Hs. unfold uint_src, unsigned_index.
  specialize (Hr i Hir). rewrite sgn_small by lia. cbv zeta.
  destruct (Z.leb_spec 0 (ga_raw g (ga_index g + i * ga_sI g))); [|lia]. reflexivity.
Qed.
Print Assumptions C23_uint_getitem_partial.

Example C23_nonvacuous :
  let g := mkGA false 8 (fun a => nth (Z.to_nat a) [0; 3; 4; 127] 0) 0 1 (fun a => 100 + a) 0 4 8 8 1000 in
  exists m', chunk_call (wprog (item_ws g (-7))) tt 4 Alone (fun _ => 0) m' /\ map m' [1000; 1008; 1016; 1024] = [100; 124; -7; -7].
Proof. eexists. split; reflexivity. Qed.

(** The full claim fails: a uint8 index 200 is read as -56, passes "index < valLength", and the item 56 places BEFORE the
    array is returned - for a short array (where the default is due) and for a long one (where element 200 is). *)
Theorem C23_uint_getitem_refuted : forall vlen, 0 <= vlen ->
  ~ (forall (g : getargs Z) def n m m',
  0 < ga_isz g -> 0 <= n -> ga_signed g = false -> ga_vlen g = vlen -> ga_sV g = ga_isz g ->
  (forall a, 0 <= ga_raw g a < 2 ^ ga_w g) ->
  chunk_call (wprog (item_ws g def)) tt n Alone m m' ->
  items_result n (ga_out g) (ga_isz g)
    (fun i => item_at (ga_val g) (ga_values g) (ga_sV g) def (unsigned_index (ga_vlen g) (ga_raw g (ga_index g + i * ga_sI g)))) m m').
Proof.
  intros vlen Hv H.
  set (g := mkGA false 8 (fun _ => 200) 0 1 (fun a => a) 0 vlen 8 8 0).
  specialize (H g 3 1 (fun _ => 0) _ ltac:(cbn; lia) ltac:(lia) eq_refl eq_refl eq_refl ltac:(cbn; lia) eq_refl).
  destruct H as [A _]. specialize (A 0 ltac:(lia)). cbv beta in A.
  change (run_ops tt (wprog (item_ws g 3) 0 1) (fun _ => 0) (ga_out g + 0 * ga_isz g)) with
    (match (if -56 <? vlen then Some (-56) else None) with Some k => 0 + k * 8 | None => 3 end) in A.
  destruct (Z.ltb_spec (-56) vlen) as [_|]; [|lia].
  cbn [g ga_val ga_values ga_sV ga_vlen ga_raw item_at] in A. unfold unsigned_index in A.
  destruct (_ && _); cbn [item_at] in A; lia.
Qed.
Print Assumptions C23_uint_getitem_refuted.

(** Variable-size items with unsigned indices (strings, records): with an odd number of indices the loop never ends *)
Theorem C23_uint_variable_hangs : forall V (g : getargs V) def len m fuel,
  0 < ga_isz g -> len mod 2 = 1 -> uvar_call g fuel def len m = None.
Proof.
  intros V g def len m fuel Hi Hodd. unfold uvar_call.
  assert (Hg : forall k i m, uvar_loop g fuel def (ga_out g + len * ga_isz g) (ga_out g + 2 * k * ga_isz g, i, m) = None).
  { induction fuel as [|fuel IH]; intros k i m1; [reflexivity|]. cbn [uvar_loop fst snd].
    destruct (Z.eqb_spec (ga_out g + 2 * k * ga_isz g) (ga_out g + len * ga_isz g)) as [E|E].
    - exfalso. assert (2 * k = len) by nia. lia.
    - unfold uvar_step. replace (ga_out g + 2 * k * ga_isz g + ga_isz g + ga_isz g) with (ga_out g + 2 * (k + 1) * ga_isz g) by lia.
      apply IH. }
  specialize (Hg 0 0 m). replace (ga_out g + 2 * 0 * ga_isz g) with (ga_out g) in Hg by lia. exact Hg.
Qed.
Print Assumptions C23_uint_variable_hangs.

(** ... and with an even number the odd slots of the result are never written *)
Theorem C23_uint_variable_skips : forall V (g : getargs V) def len m fuel m' i b,
  0 < ga_isz g -> uvar_call g fuel def len m = Some m' -> 0 <= b < ga_isz g -> i mod 2 = 1 ->
  m' (ga_out g + i * ga_isz g + b) = m (ga_out g + i * ga_isz g + b).
Proof.
  intros V g def len m fuel m' i b Hi H Hb Hodd. unfold uvar_call in H.
  set (a := ga_out g + i * ga_isz g + b).
  assert (Hel : forall k u (m : Z -> V), fold_left (fun m av => zupd m (fst av) (snd av)) (var_elem g def (ga_out g + 2 * k * ga_isz g) u) m a = m a).
  { intros k u m1.
    assert (Hno : forall v, ~ In (a, v) (var_elem g def (ga_out g + 2 * k * ga_isz g) u)).
    { intros v Hin. pose proof (wide8_bound g Hi) as HW. unfold var_elem in Hin. cbv zeta in Hin.
      apply in_app_iff in Hin. rewrite in_flat_map in Hin.
      assert (exists c, 0 <= c < ga_isz g /\ a = ga_out g + 2 * k * ga_isz g + c) as (c & Hc & E).
      { destruct Hin as [(x & Hx & Hin)|Hin]; apply in_map_iff in Hin.
        - destruct Hin as (j & [= E _] & Hj). apply zrange_In in Hx, Hj. exists (8 * x + j). lia.
        - destruct Hin as (c & [= E _] & Hc). apply zrange_In in Hc. exists c. lia. }
      unfold a in E. assert (i = 2 * k) by nia. lia. }
    revert m1. generalize dependent (var_elem g def (ga_out g + 2 * k * ga_isz g) u). intros l Hno.
    induction l as [|[a0 v0] l IH]; intros m1; [reflexivity|]. cbn [fold_left fst snd].
    rewrite IH by (intros v Hv; apply (Hno v); right; exact Hv). apply zupd_neq.
    intros E. apply (Hno v0). left. now rewrite <- E. }
  assert (Hg : forall k j m1, uvar_loop g fuel def (ga_out g + len * ga_isz g) (ga_out g + 2 * k * ga_isz g, j, m1) = Some m' -> m' a = m1 a).
  { clear H. induction fuel as [|fuel IH]; intros k j m1 H; [discriminate|]. cbn [uvar_loop fst snd] in H.
    destruct (_ =? _); [injection H as <-; reflexivity|]. unfold uvar_step in H.
    replace (ga_out g + 2 * k * ga_isz g + ga_isz g + ga_isz g) with (ga_out g + 2 * (k + 1) * ga_isz g) in H by lia.
    apply IH in H. rewrite H. apply Hel. }
  apply (Hg 0 0). replace (ga_out g + 2 * 0 * ga_isz g) with (ga_out g) by lia. exact H.
Qed.
Print Assumptions C23_uint_variable_skips.

(** such a call exists: two indices into an array of 3-byte strings *)
Example C23_uint_variable_nonvacuous :
  let g := mkGA false 8 (fun a => a) 0 1 (fun a => 100 + a) 0 4 3 3 1000 in
  exists m', uvar_call g 5 (fun _ => 0) 2 (fun _ => -1) = Some m' /\ map m' [1000; 1001; 1002; 1003; 1004; 1005] = [100; 101; 102; -1; -1; -1].
Proof. eexists. split; reflexivity. Qed.

(** ======== C24 ======== *)
(** for contiguous values every threaded execution gives what the unthreaded call gives *)
Theorem C24_threaded_getitem_partial : forall V (g : getargs V) def n T zz sched m m' m'',
  0 < ga_isz g -> 0 <= n -> ga_sV g = ga_isz g ->
  chunk_call (wprog (item_ws g def)) tt n (Threaded T zz sched) m m' ->
  chunk_call (wprog (item_ws g def)) tt n Alone m m'' ->
  forall a, m' a = m'' a.
Proof.
  intros V g def n T zz sched m m' m'' Hi Hn Hs H1 H2 a.
  destruct (item_call g Hi def n _ m m' Hn (or_intror Hs) H1) as [A1 B1].
  destruct (item_call g Hi def n _ m m'' Hn (or_introl eq_refl) H2) as [A2 B2].
  set (k := (a - ga_out g) / ga_isz g).
  destruct (Z.eq_dec a (ga_out g + k * ga_isz g)) as [E|E].
  - destruct (Z.ltb_spec k 0); [|destruct (Z.ltb_spec k n)].
    + rewrite B1, B2; [reflexivity| |]; intros i Hr; nia.
    + rewrite E, A1, A2 by lia. reflexivity.
    + rewrite B1, B2; [reflexivity| |]; intros i Hr; nia.
  - rewrite B1, B2; [reflexivity| |]; intros i _ ->; apply E; unfold k;
      replace (ga_out g + i * ga_isz g - ga_out g) with (i * ga_isz g) by lia; rewrite Z.div_mul by lia; reflexivity.
Qed.
Print Assumptions C24_threaded_getitem_partial.

Example C24_nonvacuous :
  let g := mkGA true 64 (fun a => a / 8) 0 8 (fun a => a) 0 100000 8 8 0 in
  exists sched m' m'', chunk_call (wprog (item_ws g (-7))) tt 100000 (Threaded 3 false sched) (fun _ => 0) m' /\
                       chunk_call (wprog (item_ws g (-7))) tt 100000 Alone (fun _ => 0) m''.
Proof.
  intros g. destruct (chunk_call_can_return (wprog (item_ws g (-7))) tt 100000 3 false (fun _ => 0)) as (s & m' & H);
    [unfold WORK_ITEM_BIG, WORK_ITEM_CHUNK; lia|lia|].
  exists s, m'. eexists. split; [exact H|]. reflexivity.
Qed.

(** The claim for strided values fails on every schedule: the output of a block is displaced by the VALUE stride.  a[::2]
    of int64 (stride 16, item 8), 65536 indices: slot 16384 is left unwritten and the last block is written beyond the
    65536 * 8 bytes of the result. *)
Theorem C24_threaded_getitem_refuted :
  exists (g : getargs Z) def n, 0 < ga_isz g /\ 0 <= n /\
    (forall T zz sched m m', chunk_call (wprog (item_ws g def)) tt n (Threaded T zz sched) m m' ->
       m' (ga_out g + 16384 * ga_isz g) = m (ga_out g + 16384 * ga_isz g) /\
       m' (ga_out g + n * ga_isz g) = 5) /\
    (forall m m', chunk_call (wprog (item_ws g def)) tt n Alone m m' -> m' (ga_out g + 16384 * ga_isz g) = 5) /\
    (exists T zz sched m m', chunk_call (wprog (item_ws g def)) tt n (Threaded T zz sched) m m').
Proof.
  set (g := mkGA true 64 (fun _ => 0) 0 8 (fun _ => 5) 0 10 8 16 0).
  exists g, 5, 65536. split; [cbn; lia|]. split; [lia|].
  assert (Hi : 0 < ga_isz g) by (cbn; lia).
  split; [|split].
  - intros T zz sched m m' Hc.
    destruct (wprog_call 65536 (Threaded T zz sched) (item_ws g 5) (fun _ => 5) m m' ltac:(lia)) with (2 := Hc) as [A B].
    { intros st len a v _ Hin. apply (item_ws_In g) in Hin. destruct Hin as (i & _ & _ & ->).
      unfold item, item_at. destruct (src _ _); reflexivity. }
    split.
    + apply B. intros st len v (w & Hw & -> & ->) Hin. apply (item_ws_In g) in Hin. destruct Hin as (i & Hri & E & _).
      cbn [g ga_out ga_sV ga_isz] in E. rewrite blen_val in Hri by assumption. rewrite CH_val in *. lia.
    + apply (A (CH * 2) (blen 65536 2)).
      * exists 2. split; [unfold BL; rewrite CH_val; lia|auto].
      * apply (item_ws_In g). exists 0. split; [rewrite blen_val by (unfold BL; rewrite CH_val; lia); rewrite CH_val; lia|].
        cbn [g ga_out ga_sV ga_isz]. split; [rewrite CH_val; lia|]. unfold item, item_at. destruct (src _ _); reflexivity.
  - intros m m' Hc. destruct (item_call g Hi 5 65536 Alone m m' ltac:(lia) (or_introl eq_refl) Hc) as [A _].
    rewrite A by lia. unfold item, item_at. destruct (src _ _); reflexivity.
  - destruct (chunk_call_can_return (wprog (item_ws g 5)) tt 65536 3 true (fun _ => -1)) as (s & m' & H);
      [unfold WORK_ITEM_BIG, WORK_ITEM_CHUNK; lia|lia|]. exists 3, true, s, (fun _ => -1), m'. exact H.
Qed.
Print Assumptions C24_threaded_getitem_refuted.
