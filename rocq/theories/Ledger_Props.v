(** Ledger_Props.v - C48: what the ledger keeps. *)
From Coq Require Import String.
From Verif Require Import Base Hooks_Model Ledger_Model.
Local Open Scope Z_scope.

(** ---------- specification ---------- *)
(** the entry is somewhere in the buffer after the records [es] were made, one after the other, from the start *)
Definition in_ledger (es : list entry) (e : entry) : Prop :=
  exists k, 0 <= k < RING_BUFFER_SIZE /\ queue (records es LedgerInit) k = Some e.

(** ---------- proofs ---------- *)
Lemma slot_eq t : slot t = t mod 32 + 128 * ((t / 128) mod 64).
Proof.
  unfold slot, RING_BUFFER_MASK. change 8095 with (Z.lor (Z.ones 5) (Z.shiftl (Z.ones 6) 7)). rewrite Z.land_lor_distr_l.
  assert (A : Z.land (Z.ones 5) t = t mod 32) by (rewrite Z.land_comm; now rewrite Z.land_ones by lia).
  assert (B : Z.land (Z.shiftl (Z.ones 6) 7) t = 128 * ((t / 128) mod 64)).
  { replace (128 * ((t / 128) mod 64)) with (Z.shiftl (Z.land (t / 128) (Z.ones 6)) 7) by (rewrite Z.land_ones, Z.shiftl_mul_pow2 by lia; change (2 ^ 7) with 128; change (2 ^ 6) with 64; lia).
    change 128 with (2 ^ 7) at 1. rewrite <- Z.shiftr_div_pow2 by lia. apply Z.bits_inj'. intros n Hn.
    destruct (Z_lt_dec n 7) as [H|H].
    - rewrite Z.land_spec, !Z.shiftl_spec_low by lia. reflexivity.
    - rewrite Z.land_spec, !Z.shiftl_spec by lia. rewrite Z.land_spec, Z.shiftr_spec by lia. replace (n - 7 + 7) with n by lia. apply andb_comm. }
  rewrite A, B. rewrite <- Z.lxor_lor, <- Z.add_nocarry_lxor; try reflexivity.
  all: rewrite <- A, <- B; apply Z.bits_inj'; intros n Hn; rewrite !Z.land_spec, Z.bits_0;
    destruct (Z_lt_dec n 7) as [H|H]; [rewrite Z.shiftl_spec_low by lia; cbn; now rewrite andb_false_r|rewrite (Z.ones_spec_high 5) by lia; reflexivity].
Qed.
Lemma slot_range t : 0 <= slot t < RING_BUFFER_SIZE.
Proof. rewrite slot_eq. unfold RING_BUFFER_SIZE. pose proof (Z.mod_pos_bound t 32). pose proof (Z.mod_pos_bound (t / 128) 64). lia. Qed.

Lemma records_app es es' l : records (es ++ es') l = records es' (records es l). Proof. apply fold_left_app. Qed.
Lemma records_tail es : tail (records es LedgerInit) = Z.of_nat (length es).
Proof. induction es as [|e es IH] using rev_ind; [reflexivity|]. rewrite records_app, app_length. cbn. rewrite IH. lia. Qed.
Lemma records_queue es k e : queue (records es LedgerInit) k = Some e <->
  exists j, nth_error es j = Some e /\ slot (Z.of_nat j) = k /\ forall j', (j < j' < length es)%nat -> slot (Z.of_nat j') <> k.
Proof.
  induction es as [|x es IH] using rev_ind.
  - cbn. split; [discriminate|]. intros ([|j] & H & _); discriminate.
  - rewrite records_app. cbn [records fold_left record queue]. rewrite records_tail. unfold zupd.
    destruct (Z.eqb_spec k (slot (Z.of_nat (length es)))) as [->|Hne].
    + split.
      * intros E. injection E as <-. exists (length es). split; [rewrite nth_error_app2, Nat.sub_diag by lia; reflexivity|]. split; [reflexivity|]. rewrite app_length. cbn. lia.
      * intros (j & Hj & Hs & Hl). destruct (Nat.eq_dec j (length es)) as [->|Hn].
        -- rewrite nth_error_app2, Nat.sub_diag in Hj by lia. exact Hj.
        -- assert (j < length (es ++ [x]))%nat by (apply nth_error_Some; congruence). rewrite app_length in *. cbn in *. exfalso. apply (Hl (length es)); [lia|reflexivity].
    + rewrite IH. split; intros (j & Hj & Hs & Hl).
      * assert (Hlt : (j < length es)%nat) by (apply nth_error_Some; congruence). exists j. split; [now rewrite nth_error_app1|]. split; [exact Hs|].
        intros j' Hj'. rewrite app_length in Hj'. cbn in Hj'. destruct (Nat.eq_dec j' (length es)) as [->|]; [congruence|]. apply Hl. lia.
      * assert (Hlt : (j < length (es ++ [x]))%nat) by (apply nth_error_Some; congruence). rewrite app_length in *. cbn in *.
        destruct (Nat.eq_dec j (length es)) as [->|]; [congruence|]. exists j. split; [rewrite nth_error_app1 in Hj by lia; exact Hj|]. split; [exact Hs|]. intros j' Hj'. apply Hl. lia.
Qed.

(** ---------- C48 ---------- *)
(** how long a record lives: record number i of n is in the buffer exactly when fewer than 32 records were made after it - or, for those
    with (i / 32) mod 4 = 3, fewer than 8096 *)
Theorem C48_lifetime : forall es i e, NoDup es -> nth_error es i = Some e ->
  let n := Z.of_nat (length es) in let k := Z.of_nat i in
  (in_ledger es e <-> n <= k + 32 \/ ((k / 32) mod 4 = 3 /\ n <= k + 8096)).
Proof.
  intros es i e Hnd Hi n k. assert (Hlt : (i < length es)%nat) by (apply nth_error_Some; congruence). split.
  - intros (q & _ & Hq). apply records_queue in Hq. destruct Hq as (j & Hj & Hs & Hl).
    assert (j = i) as ->. { eapply NoDup_nth_error; [exact Hnd|apply nth_error_Some; congruence|congruence]. }
    destruct (Z_le_dec n (k + 32)) as [|H1]; [now left|right].
    assert (H3 : (k / 32) mod 4 = 3).
    { destruct (Z.eq_dec ((k / 32) mod 4) 3) as [|H3]; [assumption|exfalso]. apply (Hl (i + 32)%nat); [lia|]. rewrite <- Hs, !slot_eq.
      replace (Z.of_nat (i + 32)) with (k + 32) by lia. fold k.
      assert (E : (k + 32) / 128 = k / 128) by (Z.div_mod_to_equations; lia). assert (E2 : (k + 32) mod 32 = k mod 32) by (Z.div_mod_to_equations; lia). congruence. }
    split; [exact H3|]. destruct (Z_le_dec n (k + 8096)) as [|H4]; [assumption|exfalso]. apply (Hl (Z.to_nat (k + 8096))); [lia|]. rewrite <- Hs, !slot_eq.
    rewrite Z2Nat.id by lia. fold k.
    assert (E : (k + 8096) / 128 = k / 128 + 64) by (Z.div_mod_to_equations; lia). assert (E2 : (k + 8096) mod 32 = k mod 32) by (Z.div_mod_to_equations; lia).
    rewrite E, E2. replace (k / 128 + 64) with (k / 128 + 1 * 64) by lia. now rewrite Z.mod_add by lia.
  - intros H. exists (slot k). split; [apply slot_range|]. apply records_queue. exists i. split; [exact Hi|]. split; [reflexivity|]. intros j' Hj' E.
    rewrite !slot_eq in E. fold k in E. set (j := Z.of_nat j') in *.
    assert (E1 : j mod 32 = k mod 32 /\ (j / 128) mod 64 = (k / 128) mod 64).
    { pose proof (Z.mod_pos_bound j 32). pose proof (Z.mod_pos_bound k 32). pose proof (Z.mod_pos_bound (j / 128) 64). pose proof (Z.mod_pos_bound (k / 128) 64). lia. }
    destruct E1 as [E1 E2]. destruct H as [H|[H3 H]]; [Z.div_mod_to_equations; lia|].
    assert (H4 : k / 32 = 4 * (k / 128) + 3).
    { replace (k / 128) with (k / 32 / 4) by (rewrite Z.div_div by lia; reflexivity). pose proof (Z.div_mod (k / 32) 4). lia. }
    assert (E3 : j / 128 = j / 32 / 4) by (rewrite Z.div_div by lia; reflexivity).
    assert (E4 : exists d, j = k + 32 * d /\ 1 <= d <= 252) by (exists (j / 32 - k / 32); pose proof (Z.div_mod j 32); pose proof (Z.div_mod k 32); lia).
    destruct E4 as (d & Ed & Hd). assert (E5 : j / 32 = k / 32 + d) by (rewrite Ed; replace (k + 32 * d) with (k + d * 32) by lia; now rewrite Z.div_add by lia).
    assert (E6 : j / 128 = k / 128 + (3 + d) / 4). { rewrite E3, E5, H4. replace (4 * (k / 128) + 3 + d) with (3 + d + (k / 128) * 4) by lia. rewrite Z.div_add by lia. lia. }
    rewrite E6 in E2. assert (H7 : 1 <= (3 + d) / 4 <= 63) by (Z.div_mod_to_equations; lia). Z.div_mod_to_equations. lia.
Qed.
Print Assumptions C48_lifetime.

(** in particular the 32 most recent calls are always there *)
Theorem C48_last_32_partial : forall es i e, nth_error es i = Some e -> (length es <= i + 32)%nat -> in_ledger es e.
Proof.
  intros es i e Hi H. exists (slot (Z.of_nat i)). split; [apply slot_range|]. apply records_queue. exists i. split; [exact Hi|]. split; [reflexivity|]. intros j' Hj' E.
  rewrite !slot_eq in E. pose proof (Z.mod_pos_bound (Z.of_nat j') 32). pose proof (Z.mod_pos_bound (Z.of_nat i) 32). pose proof (Z.mod_pos_bound (Z.of_nat j' / 128) 64). pose proof (Z.mod_pos_bound (Z.of_nat i / 128) 64).
  assert (E1 : Z.of_nat j' mod 32 = Z.of_nat i mod 32) by lia. Z.div_mod_to_equations. lia.
Qed.

(** but not the last 8096 (the buffer's size): after 33 calls the first is gone, although 8063 slots were never used *)
Definition call_number (i : nat) : entry := mkEntry 0 1 7 "Binary" "add" (Z.of_nat i) 0.
Lemma calls_nodup n : NoDup (map call_number (seq 0 n)).
Proof. apply FinFun.Injective_map_NoDup; [|apply seq_NoDup]. intros a b E. injection E as E. lia. Qed.
Theorem C48_refuted : exists es e, NoDup es /\ length es = 33%nat /\ nth_error es 0 = Some e /\ ~ in_ledger es e.
Proof.
  exists (map call_number (seq 0 33)), (call_number 0). split; [apply calls_nodup|]. split; [reflexivity|]. split; [reflexivity|].
  intros H. apply (C48_lifetime _ 0%nat) in H; [|apply calls_nodup|reflexivity]. cbn in H. destruct H as [H|[H _]]; [lia|discriminate].
Qed.
(** a record that does live long: number 96, with the 8095 calls after it *)
Example C48_long_case : let es := map call_number (seq 0 (Z.to_nat (96 + 8096))) in in_ledger es (call_number 96).
Proof.
  cbv zeta. apply (C48_lifetime _ 96%nat); [apply calls_nodup| |right; split; [reflexivity|]].
  - rewrite nth_error_map. rewrite nth_error_nth' with (d := 0%nat) by (rewrite seq_length; lia). rewrite seq_nth by lia. reflexivity.
  - rewrite map_length, seq_length. lia.
Qed.

(** no write is outside the buffer, for every interleaving of the Python threads' records *)
Theorem C48_in_bounds : forall todo sched, Forall (fun k => 0 <= k < RING_BUFFER_SIZE) (touched (lrun sched (lstart todo))).
Proof.
  intros td sched. unfold lrun. assert (G : forall s, Forall (fun k => 0 <= k < RING_BUFFER_SIZE) (touched s) -> Forall (fun k => 0 <= k < RING_BUFFER_SIZE) (touched (fold_left (fun s c => lstep c s) sched s))).
  { induction sched as [|c sched IH]; intros s H; [exact H|]. cbn [fold_left]. apply IH. unfold lstep. destruct (todo s c); [exact H|]. destruct (lpcs s c); try exact H. cbn [touched]. constructor; [apply slot_range|exact H]. }
  apply G. constructor.
Qed.
(** one thread's steps, undisturbed, make exactly one record *)
Theorem C48_alone : forall c e es s, todo s c = e :: es -> lpcs s c = LReady ->
  let s' := lrun [c; c; c] s in queue (ring s') = queue (record e (ring s)) /\ tail (ring s') = tail (record e (ring s)) /\ lpcs s' c = LReady /\ todo s' c = es.
Proof.
  intros c e es s Ht Hp. cbn [lrun fold_left]. unfold lstep. rewrite Ht, Hp. cbn [todo lpcs ring touched]. rewrite Ht, zupd_eq. cbn [todo lpcs ring touched tail queue]. rewrite Ht, zupd_eq.
  cbn [todo lpcs ring touched tail queue record]. rewrite !zupd_eq. repeat split; reflexivity.
Qed.
(** two calls on two Python threads: both can get slot 0, so one of two records is lost *)
Theorem C48_race_refuted : exists sched, let s := lrun sched (lstart (fun c => if c =? 0 then [call_number 0] else if c =? 1 then [call_number 1] else [])) in
  todo s 0 = [] /\ todo s 1 = [] /\ tail (ring s) = 1 /\ queue (ring s) 0 = Some (call_number 1) /\ forall k, queue (ring s) k <> Some (call_number 0).
Proof.
  exists [0; 1; 0; 1; 0; 1]. cbv zeta. split; [reflexivity|]. split; [reflexivity|]. split; [reflexivity|]. split; [reflexivity|].
  intros k E. vm_compute in E. destruct k; discriminate.
Qed.

(** the entry of a call of a hooked ufunc carries that ufunc's name, type and length *)
Theorem C48_names : forall c name op red a len beyond, In (name, op) (mapping c) ->
  exists e, LedgerRecord c red op a len beyond = Some e /\ e_name e = name /\ e_op e = op /\ e_type e = a /\ e_len1 e = len /\ 0 <= op < MAX_FUNCOP /\
    (* the category shown: a two-input ufunc is a Reduce when it is reducing and only then *)
    e_cat e = (match c, red with Binary, true => "Reduce" | Binary, false => "Binary" | Unary, _ => "Unary" | Compare, _ => "Compare" | Trig, _ => "TrigLog" end)%string.
Proof.
  intros c name op red a len beyond H.
  assert (K : ufunc_names c op = Some name /\ 0 <= op < MAX_FUNCOP).
  { assert (G : forallb (fun e => match ufunc_names c (snd e) with Some nm => String.eqb nm (fst e) | None => false end && (0 <=? snd e) && (snd e <? MAX_FUNCOP)) (mapping c) = true) by (destruct c; vm_compute; reflexivity).
    rewrite forallb_forall in G. specialize (G _ H). cbn [fst snd] in G. apply andb_true_iff in G. destruct G as [G G3]. apply andb_true_iff in G. destruct G as [G G2].
    destruct (ufunc_names c op) as [nm|]; [|discriminate]. apply String.eqb_eq in G. subst. split; [reflexivity|lia]. }
  destruct K as [K1 K2]. unfold LedgerRecord. rewrite K1. eexists. split; [reflexivity|]. repeat split; try lia; destruct c, red; reflexivity.
Qed.
Example C48_names_case : In ("power"%string, 10) (mapping Binary). Proof. cbn. tauto. Qed.
