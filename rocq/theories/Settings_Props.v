(** Settings_Props.v - C41: the switches behave as independent switches, for every finite history of calls. *)
From Verif Require Import Base Threads_Model Settings_Model.

(** ---------- specification ---------- *)
(** what a call asks of a feature *)
Definition asks_atop (c : call) := match c with AtopEnable => Some true | AtopDisable => Some false | _ => None end.
Definition asks_thread (c : call) := match c with ThreadEnable => Some true | ThreadDisable => Some false | _ => None end.
Definition asks_ledger (c : call) := match c with LedgerEnable => Some true | LedgerDisable => Some false | _ => None end.
Definition asks_recycler (c : call) := match c with RecyclerEnable => Some true | RecyclerDisable => Some false | _ => None end.
(** a hook request whose temporary array could not be allocated is refused (it returns False) *)
Definition asks_hook (c : call) := match c with HookEnable true => Some true | HookDisable true => Some false | _ => None end.
Definition asks_workers (W : Z) (c : call) := match c with ThreadSetWorkers n => Some (Z.min (W - 1) (Z.min 15 (Z.max 1 n))) | _ => None end.
(** the last request in a history (given newest call first), or the initial value *)
Fixpoint last_request {A} (asks : call -> option A) (newest_first : list call) (init : A) : A :=
  match newest_first with [] => init | c :: h => match asks c with Some b => b | None => last_request asks h init end end.
(** reply to a question asked after the history h *)
Definition answer (W : Z) (h : list call) (q : call) : reply := snd (step W q (fst (run W h (start W, [])))).
(** handler installed in ndarray after h *)
Definition getitem_handler (W : Z) (h : list call) : handler := Subscript (fst (fst (run W h (start W, [])))).

(** zigzag: on after an odd number of toggles *)
Definition toggles (h : list call) : Z := Z.of_nat (length (filter (fun c => match c with ThreadZigzag => true | _ => false end) h)).
(** a hooked call that is split over threads: at least 65536 elements, threading on *)
Definition is_threaded (c : call) (before_newest_first : list call) : bool :=
  match c with Ufunc n | UfuncBegin n => (65536 <=? n) && last_request asks_thread before_newest_first true | _ => false end.
(** number of threaded calls since the last toggle *)
Fixpoint since_toggle (newest_first : list call) : Z :=
  match newest_first with
  | [] => 0 | ThreadZigzag :: _ => 0
  | c :: h => (if is_threaded c h then 1 else 0) + since_toggle h
  end.
(** direction of each threaded call, newest first: backwards iff zigzag is on and an even number of threaded calls was made since it was switched on *)
Fixpoint directions (newest_first : list call) : list bool :=
  match newest_first with
  | [] => []
  | c :: h => if is_threaded c h then (Z.odd (toggles h) && Z.even (since_toggle h)) :: directions h else directions h
  end.
(** no hooked call overlaps another call *)
Definition one_at_a_time (h : list call) : Prop := forall c, In c h -> match c with UfuncBegin _ | UfuncEnd _ => False | _ => True end.

(** ---------- proofs ---------- *)
Lemma run_app W h1 : forall h2 so, run W (h1 ++ h2) so = let '(so1, r1) := run W h1 so in let '(so2, r2) := run W h2 so1 in (so2, r1 ++ r2).
Proof.
  induction h1 as [|c h1 IH]; intros h2 so; cbn [app run]. { now destruct (run W h2 so). }
  destruct (step W c so) as [so1 r]. rewrite IH. destruct (run W h1 so1) as [so2 r2]. destruct (run W h2 so2) as [so3 r3]. reflexivity.
Qed.
Definition after W h := fst (run W h (start W, [])).
Lemma after_snoc W h c : after W (h ++ [c]) = fst (step W c (after W h)).
Proof. unfold after. rewrite run_app. destruct (run W h (start W, [])) as [so r]. cbn [run fst]. destruct (step W c so) as [so2 r2]. reflexivity. Qed.
Lemma rev_snoc {A} (h : list A) c : rev (h ++ [c]) = c :: rev h. Proof. now rewrite rev_app_distr. Qed.

Lemma run_loop_fields n s : AtopEnabled (run_loop n s) = AtopEnabled s /\ LedgerEnabled (run_loop n s) = LedgerEnabled s /\
  RecyclerEnabled (run_loop n s) = RecyclerEnabled s /\ NoThreading (run_loop n s) = NoThreading s /\ FutexWakeCount (run_loop n s) = FutexWakeCount s /\
  NumpyGetItem (run_loop n s) = NumpyGetItem s /\ Subscript (run_loop n s) = Subscript s /\ Initialized (run_loop n s) = Initialized s /\ Hooked (run_loop n s) = Hooked s.
Proof. unfold run_loop. destruct (gets_work_item n (NoThreading s) false); cbn; repeat split. Qed.

Lemma clamp_ok W n : clamp_futex W n = Z.min (W - 1) (Z.min 15 (Z.max 1 n)).
Proof.
  unfold clamp_futex. change FUTEX_WAKE_MAX with 15. cbv zeta.
  replace (if n <? 1 then 1 else n) with (Z.max 1 n) by (destruct (Z.ltb_spec n 1); lia). rewrite !Z.gtb_ltb.
  replace (if 15 <? Z.max 1 n then 15 else Z.max 1 n) with (Z.min 15 (Z.max 1 n)) by (destruct (Z.ltb_spec 15 (Z.max 1 n)); lia).
  destruct (Z.ltb_spec (W - 1) (Z.min 15 (Z.max 1 n))); lia.
Qed.

Definition good (W : Z) (h : list call) (s : settings) : Prop :=
  AtopEnabled s = last_request asks_atop (rev h) true /\
  NoThreading s = negb (last_request asks_thread (rev h) true) /\
  RecyclerEnabled s = last_request asks_recycler (rev h) false /\
  FutexWakeCount s = last_request (asks_workers W) (rev h) (Z.min 11 (W - 1)) /\
  (NumpyGetItem s = (if last_request asks_hook (rev h) false then Some NumpyHandler else None) /\
   Subscript s = (if last_request asks_hook (rev h) false then GetItemHook else NumpyHandler)) /\
  (Initialized s = existsb (fun c => match c with Initialize => true | _ => false end) h /\ Hooked s = if Initialized s then 1 else 0).

Ltac step_simpl := rewrite after_snoc, rev_snoc; cbn [last_request].
Lemma good_all W h : good W h (fst (after W h)).
Proof.
  induction h as [|c h IH] using rev_ind; [unfold good; cbn; repeat split|].
  rewrite after_snoc. unfold good in *. rewrite rev_snoc, existsb_app. cbn [existsb orb]. cbn [last_request].
  destruct (after W h) as [s o]. cbn [fst] in IH. destruct IH as (A & B & C & D & (E1 & E2) & (F1 & F2)).
  destruct c; cbn [step fst asks_atop asks_thread asks_recycler asks_workers asks_hook]; rewrite ?orb_false_r, ?orb_true_r;
    try (repeat split; cbn; assumption).
  - unfold newinit. rewrite F1 in F2. destruct (Initialized s) eqn:Hi; cbn; rewrite ?Hi; repeat split; try assumption; try (rewrite F2; rewrite <- F1; reflexivity).
  - repeat split; cbn; try assumption. now rewrite clamp_ok.
  - destruct (ZigZagF s =? 0); repeat split; cbn; assumption.
  - rewrite E1. destruct allocated; destruct (last_request asks_hook (rev h) false) eqn:Hq; cbn [fst]; rewrite ?Hq; repeat split; cbn; try assumption; now rewrite E2.
  - rewrite E1. destruct allocated; destruct (last_request asks_hook (rev h) false) eqn:Hq; cbn [fst]; rewrite ?Hq; repeat split; cbn; try assumption; now rewrite E2.
  - destruct (LedgerEnabled s); cbn [fst];
      [pose proof (run_loop_fields n (ledger_start s)) as (a & b & d & e & f & g & i & j & k)|pose proof (run_loop_fields n s) as (a & b & d & e & f & g & i & j & k)];
      unfold ledger_end, record_one, set_ledger in *; cbn in *; rewrite ?a, ?d, ?e, ?f, ?g, ?i, ?j, ?k; cbn; repeat split; assumption.
  - destruct (LedgerEnabled s); cbn [fst];
      [pose proof (run_loop_fields n (ledger_start s)) as (a & b & d & e & f & g & i & j & k)|pose proof (run_loop_fields n s) as (a & b & d & e & f & g & i & j & k)];
      unfold ledger_end, record_one, set_ledger in *; cbn in *; rewrite ?a, ?d, ?e, ?f, ?g, ?i, ?j, ?k; cbn; repeat split; assumption.
  - destruct (nth_error o k) as [[]|]; cbn [fst]; repeat split; cbn; assumption.
Qed.

(** zigzag *)
Definition zig_ok (h : list call) (s : settings) : Prop :=
  Directions s = directions (rev h) /\
  ZigZagF s = (if Z.odd (toggles (rev h)) then if Z.even (since_toggle (rev h)) then 3 else 2 else 0).
Lemma toggles_cons c h : toggles (c :: h) = toggles h + match c with ThreadZigzag => 1 | _ => 0 end.
Proof. unfold toggles. destruct c; cbn [filter length]; lia. Qed.
Lemma run_loop_zig n h s c : (c = Ufunc n \/ c = UfuncBegin n) -> NoThreading s = negb (last_request asks_thread (rev h) true) ->
  zig_ok h s -> zig_ok (h ++ [c]) (run_loop n s).
Proof.
  intros Hc HN (D & Zf). unfold zig_ok. rewrite rev_snoc. unfold run_loop. rewrite HN.
  assert (Hg : forall b, negb (gets_work_item n b false) = (n <? 65536) || b).
  { intros b. unfold gets_work_item. change WORK_ITEM_BIG with 65536. destruct (_ || b); reflexivity. }
  rewrite Hg.
  assert (Hd : directions (c :: rev h) = if is_threaded c (rev h) then (Z.odd (toggles (rev h)) && Z.even (since_toggle (rev h))) :: directions (rev h) else directions (rev h)) by reflexivity.
  assert (Hs : since_toggle (c :: rev h) = (if is_threaded c (rev h) then 1 else 0) + since_toggle (rev h)) by (destruct Hc as [-> | ->]; reflexivity).
  assert (Ht : toggles (c :: rev h) = toggles (rev h)) by (rewrite toggles_cons; destruct Hc as [-> | ->]; lia).
  assert (Hi : is_threaded c (rev h) = (65536 <=? n) && last_request asks_thread (rev h) true) by (destruct Hc as [-> | ->]; reflexivity).
  rewrite Hd, Hs, Ht, Hi. destruct (last_request asks_thread (rev h) true); cbn [negb]; rewrite ?andb_true_r, ?andb_false_r, ?orb_true_r, ?orb_false_r; [|split; assumption].
  rewrite Z.leb_antisym. destruct (n <? 65536); cbn [negb]; [split; assumption|]. cbn [Directions ZigZagF].
  rewrite Zf, D, Z.even_add. change (Z.even 1) with false.
  destruct (Z.odd (toggles (rev h))); [|split; reflexivity]. destruct (Z.even (since_toggle (rev h))); split; reflexivity.
Qed.
Lemma zig_all W h : zig_ok h (fst (after W h)).
Proof.
  induction h as [|c h IH] using rev_ind; [split; reflexivity|].
  pose proof (good_all W h) as (_ & HN & _). rewrite after_snoc. destruct (after W h) as [s o]. cbn [fst] in *.
  assert (K : forall s', Directions s' = Directions s -> ZigZagF s' = ZigZagF s -> (forall hh, is_threaded c hh = false) -> c <> ThreadZigzag -> zig_ok (h ++ [c]) s').
  { intros s' E1 E2 Hn Hz. destruct IH as [D Zf]. unfold zig_ok. rewrite rev_snoc, E1, E2. cbn [directions]. rewrite Hn. split; [exact D|].
    rewrite toggles_cons. replace (since_toggle (c :: rev h)) with (since_toggle (rev h)) by (destruct c; cbn [since_toggle]; rewrite ?Hn; try congruence; lia).
    rewrite Zf. destruct c; try congruence; rewrite ?Z.add_0_r; reflexivity. }
  destruct c; cbn [step fst]; try (apply K; [reflexivity|reflexivity|reflexivity|discriminate]).
  - unfold newinit. destruct (Initialized s); apply K; try reflexivity; discriminate.
  - destruct IH as [D Zf]. unfold zig_ok. rewrite rev_snoc. cbn [directions is_threaded since_toggle]. rewrite toggles_cons, Z.odd_add. change (Z.odd 1) with true. change (Z.even 0) with true.
    rewrite Zf. destruct (Z.odd (toggles (rev h))); cbn [xorb]; [destruct (Z.even (since_toggle (rev h)))|]; cbn; split; try exact D; reflexivity.
  - destruct (NumpyGetItem s); [|destruct allocated]; apply K; try reflexivity; discriminate.
  - destruct (NumpyGetItem s); [destruct allocated|]; apply K; try reflexivity; discriminate.
  - destruct (LedgerEnabled s); cbn [fst]; [|now apply run_loop_zig; auto].
    assert (Hs : zig_ok (h ++ [Ufunc n]) (run_loop n (ledger_start s))) by (apply run_loop_zig; auto). exact Hs.
  - destruct (LedgerEnabled s); cbn [fst]; apply run_loop_zig; auto.
  - destruct (nth_error o k) as [[]|]; apply K; try reflexivity; discriminate.
Qed.

(** ---------- C41 ---------- *)
(** after every history, in which hooked calls may overlap other calls, each switch but the ledger's reports the last
    request made for it (and only those), setworkers the last request cut to 1..15 and below the number of workers *)
Theorem C41_switches : forall W h,
  answer W h AtopIsEnabled = RBool (last_request asks_atop (rev h) true) /\
  answer W h ThreadIsEnabled = RBool (last_request asks_thread (rev h) true) /\
  answer W h RecyclerIsEnabled = RBool (last_request asks_recycler (rev h) false) /\
  answer W h ThreadGetWorkers = RInt (last_request (asks_workers W) (rev h) (Z.min 11 (W - 1))) /\
  (forall n, answer W h (ThreadSetWorkers n) = RInt (last_request (asks_workers W) (rev h) (Z.min 11 (W - 1)))).
Proof.
  intros W h. pose proof (good_all W h) as (A & B & C & D & _). unfold answer. fold (after W h). destruct (after W h) as [s o]. cbn [fst] in *.
  cbn [step snd]. rewrite A, B, C, D, negb_involutive. repeat split.
Qed.
Print Assumptions C41_switches.

(** hook_enable/hook_disable: the hook is installed exactly after a granted enable, otherwise NumPy's own handler is back;
    each call says whether it changed anything, and while the hook is on, NumPy's handler is the one it falls back to *)
Theorem C41_hook : forall W h,
  getitem_handler W h = (if last_request asks_hook (rev h) false then GetItemHook else NumpyHandler) /\
  (getitem_handler W h = GetItemHook -> NumpyGetItem (fst (fst (run W h (start W, [])))) = Some NumpyHandler) /\
  (forall ok, answer W h (HookEnable ok) = RBool (ok && negb (last_request asks_hook (rev h) false))) /\
  (forall ok, answer W h (HookDisable ok) = RBool (ok && last_request asks_hook (rev h) false)).
Proof.
  intros W h. pose proof (good_all W h) as (_ & _ & _ & _ & (E1 & E2) & _). unfold getitem_handler, answer. fold (after W h). destruct (after W h) as [s o]. cbn [fst] in *.
  rewrite E1, E2. split; [reflexivity|]. split; [now destruct (last_request asks_hook (rev h) false)|].
  split; intros ok; cbn [step]; rewrite E1; destruct ok, (last_request asks_hook (rev h) false); reflexivity.
Qed.

(** initialize is idempotent: however often it is called, the hooking loops run once, if at all *)
Theorem C41_initialize : forall W h, let hooked := Hooked (fst (fst (run W h (start W, [])))) in
  (In Initialize h -> hooked = 1) /\ (~ In Initialize h -> hooked = 0).
Proof.
  intros W h. pose proof (good_all W h) as (_ & _ & _ & _ & _ & (F1 & F2)). unfold after in *. cbv zeta. rewrite F2, F1. split; intros H.
  - assert (E : existsb (fun c => match c with Initialize => true | _ => false end) h = true) by (apply existsb_exists; eauto). now rewrite E.
  - destruct (existsb _ h) eqn:E; [|reflexivity]. apply existsb_exists in E. destruct E as (c & Hc & Hb). destruct c; try discriminate. contradiction.
Qed.

(** zigzag: thread_zigzag reports the new state; with it off all threaded calls run forwards, with it on they alternate, starting backwards *)
Theorem C41_zigzag : forall W h,
  Directions (fst (fst (run W h (start W, [])))) = directions (rev h) /\ answer W h ThreadZigzag = RBool (Z.even (toggles h)).
Proof.
  intros W h. pose proof (zig_all W h) as (D & Zf). unfold answer. fold (after W h). split; [exact D|].
  assert (T : toggles (rev h) = toggles h).
  { clear. induction h as [|c h IH]; [reflexivity|]. cbn [rev]. unfold toggles in *. rewrite filter_app, app_length, Nat2Z.inj_add, IH. cbn [filter length]. destruct c; cbn [length]; lia. }
  rewrite T in Zf. destruct (after W h) as [s o]. cbn [fst] in *. cbn [step]. rewrite Zf. rewrite <- (Z.negb_odd (toggles h)).
  destruct (Z.odd (toggles h)); [destruct (Z.even (since_toggle (rev h)))|]; reflexivity.
Qed.

(** ledger: with ledger requests made only while no hooked call is in progress, the ledger reports the last request whenever
    no recorded call is in progress *)
Definition quiet_requests (W : Z) (h : list call) : Prop :=
  forall h1 c h2, h = h1 ++ c :: h2 -> asks_ledger c <> None -> snd (fst (run W h1 (start W, []))) = [].
Definition led_ok (h : list call) (so : state) : Prop :=
  if existsb (fun b => b) (snd so)
  then LedgerEnabled (fst so) = false /\ last_request asks_ledger (rev h) false = true /\ length (filter (fun b => b) (snd so)) = 1%nat
  else LedgerEnabled (fst so) = last_request asks_ledger (rev h) false.
Lemma drop_nth_false k : forall o, nth_error o k = Some false -> filter (fun b => b) (drop_nth k o) = filter (fun b => b) o /\ existsb (fun b => b) (drop_nth k o) = existsb (fun b => b) o.
Proof.
  induction k as [|k IH]; intros [|b o] H; cbn in H; try discriminate; cbn [drop_nth].
  - injection H as ->. split; reflexivity.
  - destruct (IH o H) as [E1 E2]. cbn [filter existsb]. rewrite E1, E2. split; reflexivity.
Qed.
Lemma drop_nth_true k : forall o, nth_error o k = Some true -> length (filter (fun b => b) o) = S (length (filter (fun b => b) (drop_nth k o))) /\ existsb (fun b => b) o = true.
Proof.
  induction k as [|k IH]; intros [|b o] H; cbn in H; try discriminate; cbn [drop_nth].
  - injection H as ->. split; reflexivity.
  - destruct (IH o H) as [E1 E2]. cbn [filter existsb]. destruct b; cbn [length]; rewrite E1, ?E2; split; reflexivity.
Qed.
Lemma exists_filter o : existsb (fun b : bool => b) o = negb (length (filter (fun b => b) o) =? 0)%nat.
Proof. induction o as [|[] o IH]; [reflexivity|reflexivity|exact IH]. Qed.
Lemma led_all W h : quiet_requests W h -> led_ok h (after W h).
Proof.
  induction h as [|c h IH] using rev_ind; [reflexivity|]. intros Q.
  assert (Q' : quiet_requests W h). { intros h1 c0 h2 E Hc. apply (Q h1 c0 (h2 ++ [c])); [now rewrite E, <- app_assoc|exact Hc]. }
  specialize (IH Q'). assert (Qc : asks_ledger c <> None -> snd (after W h) = []) by (intros Hc; apply (Q h c []); [reflexivity|exact Hc]).
  rewrite after_snoc. destruct (after W h) as [s o]. unfold led_ok in *. rewrite rev_snoc. cbn [fst snd last_request] in *.
  assert (K : forall s', LedgerEnabled s' = LedgerEnabled s -> asks_ledger c = None -> 
     if existsb (fun b => b) o then LedgerEnabled s' = false /\ (match asks_ledger c with Some b => b | None => last_request asks_ledger (rev h) false end) = true /\ length (filter (fun b => b) o) = 1%nat
     else LedgerEnabled s' = match asks_ledger c with Some b => b | None => last_request asks_ledger (rev h) false end).
  { intros s' E1 E2. rewrite E1, E2. exact IH. }
  destruct c; cbn [step fst snd]; try (apply K; reflexivity).
  - apply K; [|reflexivity]. unfold newinit. now destruct (Initialized s).
  - destruct (ZigZagF s =? 0); cbn [fst snd]; apply K; reflexivity.
  - rewrite (Qc ltac:(discriminate)). reflexivity.
  - rewrite (Qc ltac:(discriminate)). reflexivity.
  - destruct (NumpyGetItem s); [|destruct allocated]; cbn [fst snd]; apply K; reflexivity.
  - destruct (NumpyGetItem s); [destruct allocated|]; cbn [fst snd]; apply K; reflexivity.
  - destruct (LedgerEnabled s) eqn:EL; cbn [fst snd asks_ledger].
    + unfold ledger_end, record_one, set_ledger. cbn [LedgerEnabled]. destruct (existsb _ o); [destruct IH; discriminate|exact IH].
    + apply K; [|reflexivity]. rewrite (proj1 (proj2 (run_loop_fields n s))). exact EL.
  - destruct (LedgerEnabled s) eqn:EL; cbn [fst snd asks_ledger existsb orb].
    + rewrite (proj1 (proj2 (run_loop_fields n (ledger_start s)))). rewrite exists_filter in IH. cbn [filter length].
      destruct (length (filter (fun b => b) o)) as [|m] eqn:E; cbn [Nat.eqb negb] in IH; [|destruct IH; discriminate].
      split; [reflexivity|]. split; [now symmetry|reflexivity].
    + rewrite (proj1 (proj2 (run_loop_fields n s))). cbn [filter]. rewrite EL. exact IH.
  - cbn [asks_ledger]. destruct (nth_error o k) as [[]|] eqn:E; cbn [fst snd]; [| |exact IH].
    + destruct (drop_nth_true k o E) as [E1 E2]. rewrite E2 in IH. destruct IH as (I1 & I2 & I3).
      rewrite exists_filter. replace (length (filter (fun b => b) (drop_nth k o))) with 0%nat by lia. cbn [Nat.eqb negb]. rewrite I2. reflexivity.
    + destruct (drop_nth_false k o E) as [E1 E2]. rewrite E1, E2. exact IH.
Qed.
Theorem C41_ledger_partial : forall W h, quiet_requests W h ->
  (forall b, In b (snd (fst (run W h (start W, [])))) -> b = false) -> answer W h LedgerIsEnabled = RBool (last_request asks_ledger (rev h) false).
Proof.
  intros W h Q Hn. pose proof (led_all W h Q) as L. unfold answer. fold (after W h) in *. destruct (after W h) as [s o]. unfold led_ok in L. cbn [fst snd] in *. cbn [step snd].
  destruct (existsb (fun b => b) o) eqn:E; [|now rewrite L]. apply existsb_exists in E. destruct E as (b & Hb & ->). discriminate (Hn _ Hb).
Qed.
Print Assumptions C41_ledger_partial.
(** in particular when calls are made one at a time *)
Theorem C41_ledger_sequential_partial : forall W h, one_at_a_time h -> answer W h LedgerIsEnabled = RBool (last_request asks_ledger (rev h) false).
Proof.
  intros W h H1.
  assert (E : forall h, one_at_a_time h -> snd (after W h) = []).
  { clear. intros h. induction h as [|c h IH] using rev_ind; [reflexivity|]. intros H. rewrite after_snoc.
    assert (IH' : snd (after W h) = []) by (apply IH; intros c0 Hc0; apply H; apply in_or_app; now left).
    specialize (H c (in_or_app h [c] c (or_intror (or_introl eq_refl)))). destruct (after W h) as [s o]. cbn [snd] in IH'. subst o.
    destruct c; try contradiction; cbn [step fst snd]; try reflexivity.
    - now destruct (ZigZagF s =? 0).
    - destruct (NumpyGetItem s); [|destruct allocated]; reflexivity.
    - destruct (NumpyGetItem s); [destruct allocated|]; reflexivity.
    - now destruct (LedgerEnabled s). }
  apply C41_ledger_partial.
  - intros h1 c h2 Eh _. apply (E h1). intros c0 Hc0. apply H1. subst h. apply in_or_app. now left.
  - intros b Hb. fold (after W h) in Hb. rewrite (E h H1) in Hb. destruct Hb.
Qed.
(** false without that restriction: a ledger_disable made by another thread while a recorded call runs is undone when the
    call ends, and while it runs ledger_isenabled says False although the ledger was switched on *)
Theorem C41_refuted : forall W,
  let h1 := [LedgerEnable; UfuncBegin 1000] in let h2 := [LedgerEnable; UfuncBegin 1000; LedgerDisable; UfuncEnd 0] in
  answer W h1 LedgerIsEnabled = RBool false /\ last_request asks_ledger (rev h1) false = true /\
  answer W h2 LedgerIsEnabled = RBool true /\ last_request asks_ledger (rev h2) false = false /\ snd (fst (run W h2 (start W, []))) = [].
Proof. intros W. repeat split. Qed.

(** a history with every kind of call: zigzag on, three threaded calls alternate, one short call in between does not count *)
Example C41_nonvacuous :
  let h := [Initialize; ThreadZigzag; Ufunc 70000; Ufunc 100; Ufunc 70000; HookEnable true; Ufunc 65536; LedgerEnable; Ufunc 5; ThreadDisable; Ufunc 70000; HookDisable true] in
  directions (rev h) = [true; false; true] /\ one_at_a_time h /\ answer 8 h LedgerIsEnabled = RBool true /\ getitem_handler 8 h = NumpyHandler.
Proof. repeat split. intros c Hc. cbn in Hc. repeat (destruct Hc as [<-|Hc]; [exact I|]). destruct Hc. Qed.
