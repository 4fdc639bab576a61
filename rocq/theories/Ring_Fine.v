(** Ring_Fine.v - the fine-grained ring machine (Ring_Model.v part 1): as long as no worker holds a ring slot while the caller fills it, every
    call processes each of its blocks exactly once. *)
From Verif Require Import Base Threads_Model Ring_Model.

(** times call k's data had block lb processed *)
Definition times (k lb : Z) (l : list (Z * Z)) : Z :=
  Z.of_nat (length (filter (fun e => (fst e =? k) && (snd e =? lb)) l)).
Lemma times_snoc k lb l e : times k lb (l ++ [e]) = times k lb l + if (fst e =? k) && (snd e =? lb) then 1 else 0.
Proof. unfold times. rewrite filter_app, app_length. cbn [filter]. destruct (_ && _); cbn [length]; lia. Qed.

(** the worker has the slot in its hands: its fetched pointer will be, or is being, used *)
Definition holds (p : rpc) (sl : Z) : Prop :=
  match p with REntitled s' | RArg s' | RRun s' _ _ => s' = sl | _ => False end.
(** between GetWorkItem and SetWorkItem *)
Definition filling (p : mpc) : bool :=
  match p with MArg | MTotal | MWake | MLast | MComp | MNext | MSize | MCur _ | MLastBlock _ | MMark | MSet => true | _ => false end.
Definition no_intruder (s : rstate) : Prop :=
  filling (mainpc s) = true -> forall c, c <> 0 -> ~ holds (wpc s c) (slot_of (MainWorkIndex s)).

(** blocks of a call of n elements *)
Definition blocks (n : Z) : Z := (n + 16383) / 16384.

Section Fine.
  Variables (clen cwake : Z -> Z).
  Hypothesis Hlen : forall k, 0 <= clen k.
  Hypothesis Hwake : forall k, 0 <= cwake k.

  Inductive status := Fresh | Held (c : Z) | Logged (c : Z) | Done.
  Definition is_done (x : status) : bool := match x with Done => true | _ => false end.
  Definition seen (x : status) : Z := match x with Logged _ | Done => 1 | _ => 0 end.

  Definition count_done (P : Z -> status) (n : Z) : Z := Z.of_nat (length (filter (fun lb => is_done (P lb)) (zrange 0 n))).

  Lemma count_done_upd P n lb x : count_done (zupd P lb x) n =
    count_done P n + (if (0 <=? lb) && (lb <? n) then (if is_done x then 1 else 0) - (if is_done (P lb) then 1 else 0) else 0).
  Proof.
    unfold count_done.
    assert (G : forall l, NoDup l -> Z.of_nat (length (filter (fun a => is_done (zupd P lb x a)) l)) =
       Z.of_nat (length (filter (fun a => is_done (P a)) l)) + (if existsb (Z.eqb lb) l then (if is_done x then 1 else 0) - (if is_done (P lb) then 1 else 0) else 0)).
    { induction l as [|a l IH]; intros ND; [reflexivity|]. inversion ND as [|? ? N1 N2]; subst. specialize (IH N2).
      cbn [filter existsb]. unfold zupd at 1. rewrite (Z.eqb_sym lb a). destruct (Z.eqb_spec a lb) as [->|Ne].
      - assert (E : existsb (Z.eqb lb) l = false).
        { destruct (existsb _ l) eqn:E; [|reflexivity]. apply existsb_exists in E as (y & Hy & Ey). apply Z.eqb_eq in Ey. subst. contradiction. }
        rewrite E in IH. cbn [orb]. destruct (is_done x), (is_done (P lb)); cbn [length]; lia.
      - cbn [orb]. destruct (is_done (P a)); cbn [length]; lia. }
    rewrite G by apply zrange_NoDup. f_equal.
    replace (existsb (Z.eqb lb) (zrange 0 n)) with ((0 <=? lb) && (lb <? n)); [reflexivity|].
    destruct (existsb _ _) eqn:E.
    - apply existsb_exists in E as (y & Hy & Ey). apply Z.eqb_eq in Ey. apply zrange_In in Hy. lia.
    - destruct (Z.leb_spec 0 lb), (Z.ltb_spec lb n); try reflexivity. exfalso.
      assert (X : existsb (Z.eqb lb) (zrange 0 n) = true) by (apply existsb_exists; exists lb; rewrite zrange_In, Z.eqb_refl; split; [lia|reflexivity]).
      congruence.
  Qed.

  Lemma count_done_full P n : 0 <= n -> n <= count_done P n -> forall lb, 0 <= lb < n -> P lb = Done.
  Proof.
    intros Hn H lb Hlb. unfold count_done in H.
    assert (G : forall l, (length l <= length (filter (fun a => is_done (P a)) l))%nat -> forall a, In a l -> P a = Done).
    { induction l as [|a l IH]; [intros _ ? []|]. cbn [filter length]. intros L b.
      assert (Q : (length (filter (fun a => is_done (P a)) l) <= length l)%nat).
      { clear. induction l as [|y l IH]; [reflexivity|]. cbn [filter]. destruct (is_done (P y)); cbn [length]; lia. }
      destruct (is_done (P a)) eqn:E; cbn [length] in L; [|lia].
      intros [->|Hb]; [destruct (P b); cbn in E; congruence|]. apply IH; [lia|assumption]. }
    apply (G (zrange 0 n)); [|apply zrange_In; lia]. rewrite zrange_length. lia.
  Qed.

  (** share of channel i *)
  Definition share (k i : Z) : Z := blocks (clen k) / (cwake k + 1) + (if i <? blocks (clen k) mod (cwake k + 1) then 1 else 0).

  Lemma blocks_nonneg k : 0 <= blocks (clen k).
  Proof. unfold blocks. pose proof (Hlen k). lia. Qed.

  (** block b of channel i is a block of the call exactly when b is in the channel's share *)
  Lemma share_valid k i b : 0 <= i <= cwake k -> 0 <= b ->
    (b < share k i <-> b * (cwake k + 1) + i < blocks (clen k)).
  Proof.
    intros Hi Hb. unfold share. set (B := blocks (clen k)). set (T := cwake k + 1) in *. pose proof (Hwake k).
    assert (HT : 0 < T) by lia. pose proof (Z.div_mod B T ltac:(lia)) as E. pose proof (Z.mod_pos_bound B T HT) as R.
    set (q := B / T) in *. set (r := B mod T) in *. clearbody q r.
    destruct (Z.ltb_spec i r).
    - split; intros; nia.
    - split; intros; nia.
  Qed.

  Definition thread_ok (k : Z) (it : item) (P : Z -> status) (c : Z) (t : tpc) : Prop :=
    let T := cwake k in
    match t with
    | TDraw i _ => 0 <= i <= T
    | TCmp i _ b => 0 <= i <= T /\ 0 <= b /\ (b < share k i -> P (b * (T + 1) + i) = Held c)
    | TBump lb | TWork lb => 0 <= lb < blocks (clen k) /\ P lb = Held c
    | TFin lb => 0 <= lb < blocks (clen k) /\ P lb = Logged c
    | TSteal i => 0 <= i
    | TCheck | TDone => True
    end.

  Record Ready (k : Z) (it : item) (tp : Z -> option tpc) (log : list (Z * Z)) (P : Z -> status) : Prop := {
    R_wake : ThreadWakeup it = cwake k;
    R_last : BlockLast it = blocks (clen k);
    R_zz : ZigZag it = false;
    R_share : forall i, 0 <= i <= cwake k -> LastBlock (WorkerChannel it i) = share k i /\ 0 <= CurrentBlock (WorkerChannel it i);
    R_thr : forall c t, tp c = Some t -> 0 <= c <= cwake k /\ thread_ok k it P c t;
    R_fresh : forall i b, 0 <= i <= cwake k -> 0 <= b < share k i -> (P (b * (cwake k + 1) + i) = Fresh <-> CurrentBlock (WorkerChannel it i) <= b);
    R_log : forall lb, times k lb log = if (0 <=? lb) && (lb <? blocks (clen k)) then seen (P lb) else 0;
    R_done : BlocksCompleted it = count_done P (blocks (clen k))
  }.

  (** every block is (channel, number) in one way *)
  Lemma decomp k lb : 0 <= lb < blocks (clen k) -> exists i b, 0 <= i <= cwake k /\ 0 <= b < share k i /\ lb = b * (cwake k + 1) + i.
  Proof.
    intros H. pose proof (Hwake k). exists (lb mod (cwake k + 1)), (lb / (cwake k + 1)).
    pose proof (Z.mod_pos_bound lb (cwake k + 1) ltac:(lia)). pose proof (Z.div_mod lb (cwake k + 1) ltac:(lia)).
    assert (0 <= lb / (cwake k + 1)) by (apply Z.div_pos; lia).
    split; [lia|]. split; [split; [lia|]; apply share_valid; lia|lia].
  Qed.
  Lemma decomp_inj k i b i' b' : 0 <= i <= cwake k -> 0 <= i' <= cwake k -> b * (cwake k + 1) + i = b' * (cwake k + 1) + i' -> i = i' /\ b = b'.
  Proof. intros. assert (b = b') by nia. subst. split; lia. Qed.

  (** what one step of a callback loop does to its slot and to the log *)
  Definition item_step (c k : Z) (t : tpc) (it : item) (log : list (Z * Z)) : item * list (Z * Z) * tpc :=
    match t with
    | TDraw i st => (set_cur it i (CurrentBlock (WorkerChannel it i) + 1), log, TCmp i st (CurrentBlock (WorkerChannel it i)))
    | TCmp i st b => (it, log, if b <? LastBlock (WorkerChannel it i) then TBump (logical_block it i b) else if st then TSteal (i + 1) else TCheck)
    | TBump lb => (set_next it (BlockNext it + 1), log, TWork lb)
    | TWork lb => (it, log ++ [(k, lb)], TFin lb)
    | TFin lb => (set_completed it (BlocksCompleted it + 1), log, TDraw c false)
    | TCheck => (it, log, if BlockLast it <=? BlockNext it then TDone else TSteal 0)
    | TSteal i => (it, log, if i <=? ThreadWakeup it then (if i =? c then TSteal (i + 1) else TDraw i true) else TDone)
    | TDone => (it, log, TDone)
    end.

  Lemma ready_step k it tp log P c t it' log' t' :
    Ready k it tp log P -> tp c = Some t -> item_step c k t it log = (it', log', t') ->
    exists P', Ready k it' (fun c' => if c' =? c then Some t' else tp c') log' P' /\
      ((forall lb, 0 <= lb < blocks (clen k) -> P lb = Done) -> (forall lb, 0 <= lb < blocks (clen k) -> P' lb = Done) /\ log' = log).
  Proof.
    intros R Ht Hs. pose proof (Hwake k) as HW. destruct R as [Rw Rl Rz Rsh Rt Rf Rlog Rd].
    destruct (Rt c t Ht) as [Hc Hok].
    (* a step that leaves the statuses alone *)
    assert (Keep : forall it2, ThreadWakeup it2 = ThreadWakeup it -> BlockLast it2 = BlockLast it -> ZigZag it2 = ZigZag it ->
       WorkerChannel it2 = WorkerChannel it -> BlocksCompleted it2 = BlocksCompleted it -> it' = it2 -> log' = log ->
       thread_ok k it2 P c t' ->
       exists P', Ready k it' (fun c' => if c' =? c then Some t' else tp c') log' P' /\
      ((forall lb, 0 <= lb < blocks (clen k) -> P lb = Done) -> (forall lb, 0 <= lb < blocks (clen k) -> P' lb = Done) /\ log' = log)).
    { intros it2 e1 e2 e3 e4 e5 -> -> H. exists P. split; [|intros Z; split; [exact Z|reflexivity]].
      split; rewrite ?e1, ?e2, ?e3, ?e4, ?e5; try assumption.
      intros c0 t0. destruct (Z.eqb_spec c0 c) as [->|Ne]; [intros E; injection E as <-; split; assumption|].
      intros E. destruct (Rt c0 t0 E) as [A B]. split; [exact A|]. destruct t0; exact B. }
    destruct t as [i st|i st b|lb|lb|lb| |i|]; cbn [item_step] in Hs; injection Hs as E1 E2 E3; cbn [thread_ok] in Hok.
    - (* TDraw *)
      set (b := CurrentBlock (WorkerChannel it i)) in *. destruct (Rsh i Hok) as [Sh Cb]. fold b in Cb.
      set (P' := if b <? share k i then zupd P (b * (cwake k + 1) + i) (Held c) else P).
      exists P'.
      assert (PF : b < share k i -> P (b * (cwake k + 1) + i) = Fresh) by (intros; apply Rf; [exact Hok|lia|unfold b; lia]).
      assert (Fr : forall lb, P lb <> Fresh -> P' lb = P lb).
      { intros lb Hl. unfold P'. destruct (Z.ltb_spec b (share k i)); [|reflexivity]. unfold zupd.
        destruct (Z.eqb_spec lb (b * (cwake k + 1) + i)) as [->|]; [|reflexivity]. exfalso. apply Hl, PF. assumption. }
      split.
      + subst it' log' t'. split; cbn [ThreadWakeup BlockLast ZigZag WorkerChannel BlocksCompleted set_cur]; try assumption.
        * intros j Hj. unfold zupd. destruct (Z.eqb_spec j i) as [->|]; cbn [LastBlock CurrentBlock]; [|apply Rsh; exact Hj]. split; [exact Sh|fold b; lia].
        * intros c0 t0. destruct (Z.eqb_spec c0 c) as [->|Ne].
          -- intros E; injection E as <-. split; [exact Hc|]. cbn [thread_ok]. split; [exact Hok|]. split; [exact Cb|].
             intros L. unfold P'. destruct (Z.ltb_spec b (share k i)); [|lia]. apply zupd_eq.
          -- intros E. destruct (Rt c0 t0 E) as [A B]. split; [exact A|].
             destruct t0; cbn [thread_ok] in *; try exact B.
             ++ destruct B as (B1 & B2 & B3). repeat split; try assumption; try lia. intros L. rewrite Fr; [apply B3; exact L|rewrite (B3 L); discriminate].
             ++ destruct B as (B1 & B2). split; [exact B1|]. rewrite Fr; [exact B2|rewrite B2; discriminate].
             ++ destruct B as (B1 & B2). split; [exact B1|]. rewrite Fr; [exact B2|rewrite B2; discriminate].
             ++ destruct B as (B1 & B2). split; [exact B1|]. rewrite Fr; [exact B2|rewrite B2; discriminate].
        * intros j b' Hj Hb'. unfold P', zupd at 2.
          destruct (Z.eqb_spec j i) as [->|Nj]; cbn [CurrentBlock].
          -- destruct (Z.ltb_spec b (share k i)) as [L|L].
             ++ unfold zupd. destruct (Z.eqb_spec (b' * (cwake k + 1) + i) (b * (cwake k + 1) + i)) as [E|E].
                ** apply decomp_inj in E; [|assumption|assumption]. split; [discriminate|fold b; lia].
                ** rewrite (Rf i b' Hj Hb'). fold b. split; [|lia]. intros. assert (b' <> b) by (intros ->; apply E; reflexivity). lia.
             ++ rewrite (Rf i b' Hj Hb'). fold b. lia.
          -- destruct (Z.ltb_spec b (share k i)) as [L|L]; [|apply Rf; assumption].
             unfold zupd. destruct (Z.eqb_spec (b' * (cwake k + 1) + j) (b * (cwake k + 1) + i)) as [E|E]; [|apply Rf; assumption].
             apply decomp_inj in E; [|assumption|assumption]. lia.
        * intros lb. rewrite Rlog. destruct ((0 <=? lb) && (lb <? blocks (clen k))); [|reflexivity].
          unfold P'. destruct (Z.ltb_spec b (share k i)) as [L|L]; [|reflexivity].
          unfold zupd. destruct (Z.eqb_spec lb (b * (cwake k + 1) + i)) as [->|]; [|reflexivity]. rewrite (PF L). reflexivity.
        * rewrite Rd. unfold P'. destruct (Z.ltb_spec b (share k i)) as [L|L]; [|reflexivity].
          rewrite count_done_upd, (PF L). cbn [is_done]. destruct (_ && _); lia.
      + intros AD. split; [|subst; reflexivity]. intros lb Hlb. rewrite Fr; [apply AD; exact Hlb|rewrite AD by exact Hlb; discriminate].
    - (* TCmp *)
      destruct Hok as (Hi & Hb & Hh). destruct (Rsh i Hi) as [Sh _].
      apply (Keep it); try reflexivity; [symmetry; exact E1|symmetry; exact E2|].
      rewrite <- E3. destruct (Z.ltb_spec b (LastBlock (WorkerChannel it i))) as [L|L].
      + cbn [thread_ok]. unfold logical_block. rewrite Rz, Rw. rewrite Sh in L. split; [|apply Hh; exact L].
        split; [nia|]. apply share_valid; assumption.
      + destruct st; cbn [thread_ok]; [lia|exact I].
    - (* TBump *)
      apply (Keep (set_next it (BlockNext it + 1))); try reflexivity; [symmetry; exact E1|symmetry; exact E2|]. rewrite <- E3. exact Hok.
    - (* TWork *)
      destruct Hok as (Hlb & Hh).
      exists (zupd P lb (Logged c)). split.
      + subst it' log' t'. split; try assumption.
        * intros c0 t0. destruct (Z.eqb_spec c0 c) as [->|Ne].
          -- intros E; injection E as <-. split; [exact Hc|]. cbn [thread_ok]. split; [exact Hlb|apply zupd_eq].
          -- intros E. destruct (Rt c0 t0 E) as [A B]. split; [exact A|].
             assert (Oth : forall lb0, P lb0 = Held c0 \/ P lb0 = Logged c0 -> zupd P lb (Logged c) lb0 = P lb0).
             { intros lb0 H0. apply zupd_neq. intros ->. rewrite Hh in H0. destruct H0; congruence. }
             destruct t0; cbn [thread_ok] in *; try exact B.
             ++ destruct B as (B1 & B2 & B3). repeat split; try assumption; try lia. intros L. rewrite Oth; [apply B3; exact L|left; apply B3; exact L].
             ++ destruct B as (B1 & B2). split; [exact B1|]. rewrite Oth; [exact B2|left; exact B2].
             ++ destruct B as (B1 & B2). split; [exact B1|]. rewrite Oth; [exact B2|left; exact B2].
             ++ destruct B as (B1 & B2). split; [exact B1|]. rewrite Oth; [exact B2|right; exact B2].
        * intros j b' Hj Hb'. rewrite <- (Rf j b' Hj Hb'). unfold zupd.
          destruct (Z.eqb_spec (b' * (cwake k + 1) + j) lb) as [->|]; [|reflexivity]. rewrite Hh. split; discriminate.
        * intros lb0. rewrite times_snoc, Rlog. cbn [fst snd]. rewrite Z.eqb_refl. cbn [andb]. unfold zupd.
          rewrite (Z.eqb_sym lb lb0). destruct (Z.eqb_spec lb0 lb) as [->|].
          -- destruct (Z.leb_spec 0 lb), (Z.ltb_spec lb (blocks (clen k))); try lia. cbn [andb]. rewrite Hh. reflexivity.
          -- lia.
        * rewrite Rd, count_done_upd, Hh. cbn [is_done]. destruct (_ && _); lia.
      + intros AD. exfalso. specialize (AD lb Hlb). rewrite Hh in AD. discriminate.
    - (* TFin *)
      destruct Hok as (Hlb & Hh).
      exists (zupd P lb Done). split.
      + subst it' log' t'. split; cbn [ThreadWakeup BlockLast ZigZag WorkerChannel BlocksCompleted set_completed]; try assumption.
        * intros c0 t0. destruct (Z.eqb_spec c0 c) as [->|Ne].
          -- intros E; injection E as <-. split; [exact Hc|]. cbn [thread_ok]. exact Hc.
          -- intros E. destruct (Rt c0 t0 E) as [A B]. split; [exact A|].
             assert (Oth : forall lb0, P lb0 = Held c0 \/ P lb0 = Logged c0 -> zupd P lb Done lb0 = P lb0).
             { intros lb0 H0. apply zupd_neq. intros ->. rewrite Hh in H0. destruct H0; congruence. }
             destruct t0; cbn [thread_ok] in *; try exact B.
             ++ destruct B as (B1 & B2 & B3). repeat split; try assumption; try lia. intros L. rewrite Oth; [apply B3; exact L|left; apply B3; exact L].
             ++ destruct B as (B1 & B2). split; [exact B1|]. rewrite Oth; [exact B2|left; exact B2].
             ++ destruct B as (B1 & B2). split; [exact B1|]. rewrite Oth; [exact B2|left; exact B2].
             ++ destruct B as (B1 & B2). split; [exact B1|]. rewrite Oth; [exact B2|right; exact B2].
        * intros j b' Hj Hb'. rewrite <- (Rf j b' Hj Hb'). unfold zupd.
          destruct (Z.eqb_spec (b' * (cwake k + 1) + j) lb) as [->|]; [|reflexivity]. rewrite Hh. split; discriminate.
        * intros lb0. rewrite Rlog. unfold zupd. destruct (Z.eqb_spec lb0 lb) as [->|]; [|reflexivity]. rewrite Hh. reflexivity.
        * rewrite Rd, count_done_upd, Hh. cbn [is_done].
          destruct (Z.leb_spec 0 lb), (Z.ltb_spec lb (blocks (clen k))); try lia. cbn [andb]. lia.
      + intros AD. exfalso. specialize (AD lb Hlb). rewrite Hh in AD. discriminate.
    - (* TCheck *)
      apply (Keep it); try reflexivity; [symmetry; exact E1|symmetry; exact E2|]. rewrite <- E3. destruct (_ <=? _); cbn [thread_ok]; [exact I|lia].
    - (* TSteal *)
      apply (Keep it); try reflexivity; [symmetry; exact E1|symmetry; exact E2|]. rewrite <- E3.
      destruct (Z.leb_spec i (ThreadWakeup it)); [|exact I]. destruct (i =? c); cbn [thread_ok]; lia.
    - apply (Keep it); try reflexivity; [symmetry; exact E1|symmetry; exact E2|]. rewrite <- E3. exact I.
  Qed.

  (** * the whole ring *)
  Definition here (s : rstate) : Z := slot_of (MainWorkIndex s).
  (** where thread c is in a callback on slot sl *)
  Definition tp (s : rstate) (sl c : Z) : option tpc :=
    if c =? 0 then match mainpc s with MRun t => if sl =? here s then Some t else None | _ => None end
    else match wpc s c with RRun s' _ t => if s' =? sl then Some t else None | _ => None end.

  (** what the caller has written so far *)
  Definition chan_ok (k : Z) (it : item) (j : Z) : Prop :=
    LastBlock (WorkerChannel it j) = share k j /\ CurrentBlock (WorkerChannel it j) = 0.
  Definition fill_ok (k : Z) (it : item) (p : mpc) : Prop :=
    let w := ThreadWakeup it = cwake k in
    let l := BlockLast it = blocks (clen k) in
    let d := BlocksCompleted it = 0 in
    match p with
    | MLast => w
    | MComp => w /\ l
    | MNext | MSize => w /\ l /\ d
    | MCur i => w /\ l /\ d /\ 0 <= i <= cwake k + 1 /\ forall j, 0 <= j < i -> chan_ok k it j
    | MLastBlock i => w /\ l /\ d /\ 0 <= i <= cwake k /\ (forall j, 0 <= j < i -> chan_ok k it j) /\ CurrentBlock (WorkerChannel it i) = 0
    | MMark | MSet => w /\ l /\ d /\ forall j, 0 <= j <= cwake k -> chan_ok k it j
    | _ => True
    end.

  Definition all_done (k : Z) (P : Z -> status) : Prop := forall lb, 0 <= lb < blocks (clen k) -> P lb = Done.
  Definition valid (k lb : Z) : bool := (0 <=? lb) && (lb <? blocks (clen k)).
  Definition usable (s : rstate) (sl : Z) : Prop := 1 <= slotArg s sl /\ ~ (filling (mainpc s) = true /\ sl = here s).
  Definition finished_call (s : rstate) (k : Z) : Prop := k < call_no s \/ mainpc s = MComplete.

  Record GInv (s : rstate) : Prop := {
    G_no : 1 <= call_no s;
    G_idx : MainWorkIndex s = call_no s - (match mainpc s with MGet => 1 | _ => 0 end);
    G_pool : 0 <= PoolWorkIndexCompleted s /\ PoolWorkIndex s <= MainWorkIndex s;
    G_neg : forall c, c < 0 -> wpc s c = RTop;
    G_seen : forall c, wpc s c <> RTop -> 1 <= MainWorkIndex s;
    G_hold : forall c sl, c <> 0 -> holds (wpc s c) sl -> 1 <= slotArg s sl;
    G_arg : forall c sl, c <> 0 -> wpc s c = RArg sl -> c <= cwake (slotArg s sl);
    G_run : forall c sl arg t, c <> 0 -> wpc s c = RRun sl arg t -> arg = slotArg s sl;
    G_slot : forall sl, usable s sl -> slot_of (slotArg s sl) = sl /\ slotArg s sl <= MainWorkIndex s /\
       exists P, Ready (slotArg s sl) (slots s sl) (tp s sl) (rlog s) P /\ (finished_call s (slotArg s sl) -> all_done (slotArg s sl) P);
    G_zz : forall sl, ZigZag (slots s sl) = false;
    G_cur : mainpc s <> MArg -> 1 <= MainWorkIndex s -> slotArg s (here s) = MainWorkIndex s;
    G_fill : fill_ok (call_no s) (slots s (here s)) (mainpc s);
    G_old : forall k lb, 1 <= k < call_no s -> times k lb (rlog s) = if valid k lb then 1 else 0;
    G_new : forall k lb, call_no s < k \/ (k = call_no s /\ (mainpc s = MGet \/ filling (mainpc s) = true)) -> times k lb (rlog s) = 0;
    G_ret : forall k, In k (returned s) <-> 1 <= k < call_no s
  }.

  Lemma ready_frame k it tp1 tp2 log1 log2 P : Ready k it tp1 log1 P ->
    (forall c t, tp2 c = Some t -> tp1 c = Some t) -> (forall lb, times k lb log2 = times k lb log1) -> Ready k it tp2 log2 P.
  Proof.
    intros [a b c d e f g h] Ht Hl. split; try assumption.
    - intros c0 t0 H0. apply e, Ht. exact H0.
    - intros lb. rewrite Hl. apply g.
  Qed.

  (** effect of tstep *)
  Lemma tstep_spec s c sl arg t s' t' : tstep s c sl arg t = (s', t') ->
    exists it' log', item_step c arg t (slots s sl) (rlog s) = (it', log', t') /\
      (forall x, slots s' x = if x =? sl then it' else slots s x) /\ rlog s' = log' /\
      MainWorkIndex s' = MainWorkIndex s /\ PoolWorkIndex s' = PoolWorkIndex s /\ PoolWorkIndexCompleted s' = PoolWorkIndexCompleted s /\
      slotArg s' = slotArg s /\ call_no s' = call_no s /\ mainpc s' = mainpc s /\ wpc s' = wpc s /\ returned s' = returned s.
  Proof.
    assert (Id : forall x, slots s x = if x =? sl then slots s sl else slots s x) by (intros x; destruct (Z.eqb_spec x sl) as [->|]; reflexivity).
    destruct t; cbn [tstep item_step]; intros E.
    - injection E as <- <-. eexists _, _. split; [reflexivity|]. repeat split; reflexivity.
    - destruct (block <? _); injection E as <- <-; (eexists _, _; split; [reflexivity|]; repeat split; try reflexivity; exact Id).
    - injection E as <- <-. eexists _, _. split; [reflexivity|]. repeat split; reflexivity.
    - injection E as <- <-. eexists _, _. split; [reflexivity|]. repeat split; try reflexivity; exact Id.
    - injection E as <- <-. eexists _, _. split; [reflexivity|]. repeat split; reflexivity.
    - injection E as <- <-. eexists _, _. split; [reflexivity|]. repeat split; try reflexivity; exact Id.
    - injection E as <- <-. eexists _, _. split; [reflexivity|]. repeat split; try reflexivity; exact Id.
    - injection E as <- <-. eexists _, _. split; [reflexivity|]. repeat split; try reflexivity; exact Id.
  Qed.

  Lemma item_step_zz c k t it log it' log' t' : item_step c k t it log = (it', log', t') -> ZigZag it' = ZigZag it.
  Proof. destruct t; cbn [item_step]; intros E; injection E as <- <- <-; reflexivity. Qed.
  Lemma item_step_log c k t it log it' log' t' : item_step c k t it log = (it', log', t') ->
    forall k' lb, k' <> k -> times k' lb log' = times k' lb log.
  Proof.
    destruct t; cbn [item_step]; intros E; injection E as <- <- <-; intros k' lb0 Ne; try reflexivity.
    rewrite times_snoc. cbn [fst]. destruct (Z.eqb_spec k k'); [congruence|]. cbn [andb]. lia.
  Qed.

  (** a step of a callback on a usable slot: slots and log *)
  Lemma slots_step s s2 c sl t it' log' t' : GInv s -> usable s sl -> tp s sl c = Some t ->
    item_step c (slotArg s sl) t (slots s sl) (rlog s) = (it', log', t') ->
    (forall x, slots s2 x = if x =? sl then it' else slots s x) -> rlog s2 = log' -> slotArg s2 = slotArg s ->
    MainWorkIndex s2 = MainWorkIndex s -> call_no s2 = call_no s ->
    (filling (mainpc s2) = filling (mainpc s)) -> (mainpc s2 = MComplete -> mainpc s = MComplete) -> (mainpc s2 = MGet -> mainpc s = MGet) ->
    (forall x c', tp s2 x c' = if (x =? sl) && (c' =? c) then Some t' else tp s x c') ->
    (forall sl, usable s2 sl -> slot_of (slotArg s2 sl) = sl /\ slotArg s2 sl <= MainWorkIndex s2 /\
       exists P, Ready (slotArg s2 sl) (slots s2 sl) (tp s2 sl) (rlog s2) P /\ (finished_call s2 (slotArg s2 sl) -> all_done (slotArg s2 sl) P)) /\
    (forall sl, ZigZag (slots s2 sl) = false) /\
    (forall k lb, 1 <= k < call_no s2 -> times k lb (rlog s2) = if valid k lb then 1 else 0) /\
    (forall k lb, call_no s2 < k \/ (k = call_no s2 /\ (mainpc s2 = MGet \/ filling (mainpc s2) = true)) -> times k lb (rlog s2) = 0).
  Proof.
    intros G U Ht Hi Hsl Hlog Harg Hmw Hcn Hf Hmc Hmg Htp.
    destruct (G_slot s G sl U) as (Hs & Hle & P & R & AD).
    destruct (ready_step _ _ _ _ _ _ _ _ _ _ R Ht Hi) as (P' & R' & AD').
    assert (Us : forall x, usable s2 x -> usable s x).
    { intros x [u1 u2]. split; [congruence|]. unfold here in *. rewrite Hf, Hmw in u2. exact u2. }
    assert (Fin : forall k, finished_call s2 k -> finished_call s k).
    { intros k [F|F]; [left; congruence|right; auto]. }
    assert (Late : finished_call s (slotArg s sl) -> log' = rlog s) by (intros F; exact (proj2 (AD' (AD F)))).
    split; [|split; [|split]].
    - intros x Ux. rewrite Harg, Hmw. apply Us in Ux. destruct (G_slot s G x Ux) as (Hx & Hlx & Px & Rx & ADx).
      split; [exact Hx|]. split; [exact Hlx|]. rewrite Hsl, Hlog. destruct (Z.eqb_spec x sl) as [->|Ne].
      + exists P'. split; [|intros F; exact (proj1 (AD' (AD (Fin _ F))))].
        eapply ready_frame; [exact R'| |reflexivity]. intros c' t0. rewrite Htp, Z.eqb_refl. cbn [andb]. auto.
      + exists Px. split; [|intros F; apply ADx, Fin, F].
        eapply ready_frame; [exact Rx| |].
        * intros c' t0. rewrite Htp. destruct (Z.eqb_spec x sl); [contradiction|]. cbn [andb]. auto.
        * intros lb. eapply item_step_log; [exact Hi|]. intros E. apply Ne. rewrite <- Hx, <- Hs, E. reflexivity.
    - intros x. rewrite Hsl. destruct (x =? sl); [|apply (G_zz s G)]. rewrite (item_step_zz _ _ _ _ _ _ _ _ Hi). apply (G_zz s G).
    - intros k lb Hk. rewrite Hlog. rewrite Hcn in Hk. rewrite <- (G_old s G k lb Hk).
      destruct (Z.eq_dec k (slotArg s sl)) as [E|E]; [|eapply item_step_log; [exact Hi|exact E]].
      rewrite Late; [reflexivity|]. left. lia.
    - intros k lb Hk. rewrite Hlog. rewrite Hcn, Hf in Hk.
      assert (Hk' : call_no s < k \/ (k = call_no s /\ (mainpc s = MGet \/ filling (mainpc s) = true))).
      { destruct Hk as [Hk|(Hk & [Hk1|Hk1])]; [left; exact Hk|right; split; [exact Hk|left; auto]|right; split; [exact Hk|right; exact Hk1]]. }
      rewrite <- (G_new s G k lb Hk').
      eapply item_step_log; [exact Hi|]. intros ->.
      pose proof (G_idx s G) as Ix. destruct Hk' as [Hk'|(Hk1 & Hk2)]; [destruct (mainpc s); lia|].
      destruct Hk2 as [Hk2|Hk2]; [rewrite Hk2 in Ix; lia|].
      destruct U as [_ U2]. apply U2. split; [exact Hk2|]. rewrite <- Hs. unfold here.
      replace (MainWorkIndex s) with (slotArg s sl); [reflexivity|]. rewrite Hk1. destruct (mainpc s); cbn in Hk2; try discriminate; lia.
  Qed.

  Lemma wpc_worker s c p x : wpc (set_worker s c p) x = if x =? c then p else wpc s x.
  Proof. reflexivity. Qed.

  (** a worker step that touches neither slots nor log, and does not enter a callback *)
  Lemma worker_light s c p : GInv s -> 0 < c -> no_intruder (set_worker s c p) ->
    (p <> RTop -> 1 <= MainWorkIndex s) ->
    (forall sl, holds p sl -> 1 <= slotArg s sl) ->
    (forall sl, p = RArg sl -> c <= cwake (slotArg s sl)) ->
    (forall sl arg t, p <> RRun sl arg t) -> GInv (set_worker s c p).
  Proof.
    intros G Hc NI H1 H2 H3 H4.
    assert (Tp : forall sl c' t, tp (set_worker s c p) sl c' = Some t -> tp s sl c' = Some t).
    { intros sl c' t. unfold tp. cbn [mainpc wpc MainWorkIndex set_worker]. destruct (Z.eqb_spec c' 0); [auto|].
      unfold zupd. destruct (Z.eqb_spec c' c) as [->|]; [|auto]. destruct p; try discriminate. exfalso. eapply H4. reflexivity. }
    destruct G as [g1 g2 g3 g4 g5 g6 g7 g8 g9 g10 g11 g12 g13 g14 g15].
    split; cbn [call_no MainWorkIndex PoolWorkIndex PoolWorkIndexCompleted mainpc rlog returned slots slotArg set_worker]; try assumption.
    - intros c' Hc'. cbn [wpc set_worker]. rewrite zupd_neq by lia. apply g4. exact Hc'.
    - intros c'. cbn [wpc set_worker]. unfold zupd. destruct (c' =? c); [exact H1|apply g5].
    - intros c' sl. cbn [wpc set_worker]. unfold zupd. destruct (c' =? c); [intros _; apply H2|apply g6].
    - intros c' sl. cbn [wpc set_worker]. unfold zupd. destruct (Z.eqb_spec c' c) as [->|]; [intros _; apply H3|apply g7].
    - intros c' sl arg t. cbn [wpc set_worker]. unfold zupd. destruct (Z.eqb_spec c' c) as [->|]; [intros _ E; exfalso; eapply H4; exact E|apply g8].
    - intros sl U. destruct (g9 sl U) as (A & B & P & R & AD). split; [exact A|]. split; [exact B|]. exists P. split; [|exact AD].
      eapply ready_frame; [exact R|apply Tp|reflexivity].
  Qed.

  Lemma holder_usable s c sl : GInv s -> no_intruder s -> c <> 0 -> holds (wpc s c) sl -> usable s sl.
  Proof.
    intros G NI Hc H. split; [eapply (G_hold s G); eauto|]. intros [F ->]. exact (NI F c Hc H).
  Qed.

  Lemma wstep_inv s c : GInv s -> 0 < c -> no_intruder s -> no_intruder (wstep c s) -> GInv (wstep c s).
  Proof.
    intros G Hc NI NI'. assert (c0 : c <> 0) by lia. unfold wstep in *.
    destruct (wpc s c) as [| |sl|sl|sl arg t] eqn:W.
    - (* RTop *)
      destruct (Z.ltb_spec (PoolWorkIndexCompleted s) (PoolWorkIndex s)); [|exact G].
      apply worker_light; try assumption; try discriminate.
      + intros _. pose proof (G_pool s G). lia.
      + intros sl [].
    - (* RFetch *)
      assert (M : 1 <= MainWorkIndex s) by (apply (G_seen s G c); rewrite W; discriminate).
      apply worker_light; try assumption; try discriminate; [intros _; exact M|].
      intros sl Hsl. cbn [holds] in Hsl. subst sl.
      destruct (filling (mainpc s)) eqn:F.
      + exfalso. refine (NI' F c c0 _). cbn [wpc set_worker]. rewrite zupd_eq. reflexivity.
      + fold (here s). rewrite (G_cur s G); [exact M| |exact M]. intros E'. rewrite E' in F. discriminate.
    - (* REntitled *)
      assert (Hh : holds (wpc s c) sl) by (rewrite W; reflexivity).
      assert (U : usable s sl) by (eapply holder_usable; eauto).
      assert (M : 1 <= MainWorkIndex s) by (apply (G_seen s G c); rewrite W; discriminate).
      destruct (G_slot s G sl U) as (_ & _ & P & R & _).
      destruct (Z.leb_spec c (ThreadWakeup (slots s sl))) as [L|L]; (apply worker_light; try assumption; try discriminate).
      + intros _. exact M.
      + intros x Hx. cbn [holds] in Hx. subst x. apply U.
      + intros x E. injection E as <-. rewrite (R_wake _ _ _ _ _ R) in L. exact L.
      + congruence.
      + intros x [].
    - (* RArg *)
      assert (Hh : holds (wpc s c) sl) by (rewrite W; reflexivity).
      assert (U : usable s sl) by (eapply holder_usable; eauto).
      assert (M : 1 <= MainWorkIndex s) by (apply (G_seen s G c); rewrite W; discriminate).
      pose proof (G_arg s G c sl c0 W) as Ca.
      destruct G as [g1 g2 g3 g4 g5 g6 g7 g8 g9 g10 g11 g12 g13 g14 g15].
      split; cbn [call_no MainWorkIndex PoolWorkIndex PoolWorkIndexCompleted mainpc rlog returned slots slotArg set_worker]; try assumption.
      + intros c' Hc'. cbn [wpc set_worker]. rewrite zupd_neq by lia. apply g4. exact Hc'.
      + intros c'. cbn [wpc set_worker]. unfold zupd. destruct (c' =? c); [intros _; exact M|apply g5].
      + intros c' x. cbn [wpc set_worker]. unfold zupd. destruct (c' =? c); [intros _ E; cbn [holds] in E; subst x; apply U|apply g6].
      + intros c' x. cbn [wpc set_worker]. unfold zupd. destruct (Z.eqb_spec c' c) as [->|]; [intros _; discriminate|apply g7].
      + intros c' x arg t. cbn [wpc set_worker]. unfold zupd. destruct (Z.eqb_spec c' c) as [->|]; [intros _ E; injection E as <- <- <-; reflexivity|apply g8].
      + intros x Ux. destruct (g9 x Ux) as (A & B & P & R & AD). split; [exact A|]. split; [exact B|]. exists P. split; [|exact AD].
        destruct R as [r1 r2 r3 r4 r5 r6 r7 r8]. split; try assumption.
        intros c' t. unfold tp. cbn [mainpc wpc MainWorkIndex set_worker]. unfold zupd.
        destruct (Z.eqb_spec c' c) as [->|Ne].
        * destruct (Z.eqb_spec c 0); [contradiction|]. destruct (Z.eqb_spec sl x) as [<-|]; [|discriminate].
          intros E. injection E as <-. split; [lia|]. cbn [thread_ok]. lia.
        * intros E. apply r5. unfold tp. exact E.
    - (* RRun *)
      assert (Hh : holds (wpc s c) sl) by (rewrite W; reflexivity).
      assert (U : usable s sl) by (eapply holder_usable; eauto).
      assert (M : 1 <= MainWorkIndex s) by (apply (G_seen s G c); rewrite W; discriminate).
      pose proof (G_run s G c sl arg t c0 W) as Ea.
      assert (Run : forall s1 t1, tstep s c sl arg t = (s1, t1) -> GInv (set_worker s1 c (RRun sl arg t1))).
      { intros s1 t1 E. destruct (tstep_spec _ _ _ _ _ _ _ E) as (it' & log' & Hi & e1 & e2 & e3 & e4 & e5 & e6 & e7 & e8 & e9 & e10).
        assert (Ht : tp s sl c = Some t).
        { unfold tp. destruct (Z.eqb_spec c 0); [contradiction|]. rewrite W, Z.eqb_refl. reflexivity. }
        rewrite Ea in Hi.
        destruct (slots_step s (set_worker s1 c (RRun sl arg t1)) c sl t it' log' t1 G U Ht Hi) as (s1' & s2' & s3' & s4');
          try (cbn [slots rlog slotArg MainWorkIndex call_no mainpc set_worker]; first [assumption | rewrite e8; tauto | congruence]).
        { intros x c'. unfold tp, here. cbn [mainpc wpc MainWorkIndex set_worker]. rewrite e8, e3, e9. unfold zupd.
          destruct (Z.eqb_spec c' c) as [->|]; [|rewrite andb_false_r; reflexivity].
          destruct (Z.eqb_spec c 0); [contradiction|]. rewrite W, (Z.eqb_sym sl x). destruct (x =? sl); reflexivity. }
        destruct G as [g1 g2 g3 g4 g5 g6 g7 g8 g9 g10 g11 g12 g13 g14 g15].
        split; try assumption; cbn [call_no MainWorkIndex PoolWorkIndex PoolWorkIndexCompleted mainpc returned slotArg set_worker wpc];
          rewrite ?e3, ?e4, ?e5, ?e6, ?e7, ?e8, ?e9, ?e10; try assumption.
        - intros c' Hc'. rewrite zupd_neq by lia. apply g4. exact Hc'.
        - intros c'. unfold zupd. destruct (c' =? c); [intros _; exact M|apply g5].
        - intros c' x. unfold zupd. destruct (c' =? c); [intros _ Ex; cbn [holds] in Ex; subst x; apply U|apply g6].
        - intros c' x. unfold zupd. destruct (Z.eqb_spec c' c) as [->|]; [intros _; discriminate|apply g7].
        - intros c' x arg' t'. unfold zupd. destruct (Z.eqb_spec c' c) as [->|]; [intros _ Ex; injection Ex as <- <- <-; exact Ea|apply g8].
        - unfold here in *. cbn [MainWorkIndex slotArg set_worker]. rewrite e3. exact g11.
        - unfold here in *. cbn [slots MainWorkIndex set_worker]. rewrite e1, e3.
          destruct (Z.eqb_spec (slot_of (MainWorkIndex s)) sl) as [E'|]; [|exact g12].
          assert (F : filling (mainpc s) = false).
          { destruct (filling (mainpc s)) eqn:F; [|reflexivity]. exfalso. apply (proj2 U). split; [exact F|]. symmetry. exact E'. }
          destruct (mainpc s); cbn in F; try discriminate; exact I. }
      destruct t; lazymatch goal with
        | |- GInv (set_worker s c RTop) => idtac
        | |- context [tstep ?a ?b ?d ?e ?f] => destruct (tstep a b d e f) as [s1 t1] eqn:E; exact (Run s1 t1 eq_refl)
        end.
      apply worker_light; try assumption; try discriminate; [congruence|intros x []].
  Qed.

  (** a step of the caller that changes only the slot being filled *)
  Lemma tp_main s s' : wpc s' = wpc s -> (forall t, mainpc s' <> MRun t) ->
    forall sl c t, tp s' sl c = Some t -> tp s sl c = Some t.
  Proof.
    intros Hw Hm sl c t. unfold tp. rewrite Hw. destruct (c =? 0); [|auto]. destruct (mainpc s') eqn:E; try discriminate.
    exfalso. eapply Hm. reflexivity.
  Qed.

  Lemma slot_range k : 0 <= slot_of k < 1024.
  Proof. unfold slot_of, RING_BUFFER_MASK. change 1023 with (Z.ones 10). rewrite Z.land_ones by lia. apply Z.mod_pos_bound. lia. Qed.

  (** the caller writes into the slot it is filling *)
  Lemma main_fill s it arg p : GInv s -> no_intruder s -> filling (mainpc s) = true -> filling p = true ->
    ((arg = slotArg s (here s) /\ mainpc s <> MArg) \/ arg = MainWorkIndex s) -> ZigZag it = false -> fill_ok (call_no s) it p ->
    (p <> MArg) ->
    GInv (mkR (MainWorkIndex s) (PoolWorkIndex s) (PoolWorkIndexCompleted s) (zupd (slots s) (here s) it) (zupd (slotArg s) (here s) arg)
              (call_no s) p (wpc s) (rlog s) (returned s)).
  Proof.
    intros G NI F Fp Ha Hz Hfo _.
    assert (Nh : forall c sl, c <> 0 -> holds (wpc s c) sl -> sl <> here s) by (intros c sl c0 H ->; exact (NI F c c0 H)).
    destruct G as [g1 g2 g3 g4 g5 g6 g7 g8 g9 g10 g11 g12 g13 g14 g15].
    split; unfold here in *; cbn [call_no MainWorkIndex PoolWorkIndex PoolWorkIndexCompleted mainpc rlog returned slots slotArg wpc]; try assumption.
    - rewrite g2. destruct (mainpc s); cbn in F; try discriminate; destruct p; cbn in Fp; try discriminate; reflexivity.
    - intros c sl c0 H. pose proof (Nh c sl c0 H). rewrite zupd_neq by assumption. eapply g6; eauto.
    - intros c sl c0 H. assert (sl <> slot_of (MainWorkIndex s)) by (apply (Nh c sl c0); rewrite H; reflexivity).
      rewrite zupd_neq by assumption. eapply g7; eauto.
    - intros c sl a t c0 H. assert (sl <> slot_of (MainWorkIndex s)) by (apply (Nh c sl c0); rewrite H; reflexivity).
      rewrite zupd_neq by assumption. eapply g8; eauto.
    - intros sl [U1 U2]. unfold here in U2. cbn [slotArg mainpc MainWorkIndex] in U1, U2.
      assert (Ne : sl <> slot_of (MainWorkIndex s)) by (intros ->; apply U2; split; [exact Fp|reflexivity]).
      rewrite zupd_neq in U1 by exact Ne. rewrite !zupd_neq by exact Ne.
      destruct (g9 sl) as (A & B & P & R & AD).
      { split; [exact U1|]. intros [_ E]. exact (Ne E). }
      split; [exact A|]. split; [exact B|]. exists P. split.
      + eapply ready_frame; [exact R| |reflexivity]. apply tp_main; [reflexivity|]. cbn [mainpc]. intros t E. rewrite E in Fp. discriminate.
      + intros Fi. apply AD. destruct Fi as [Fi|Fi]; [left; exact Fi|]. cbn [mainpc] in Fi. rewrite Fi in Fp. discriminate.
    - intros sl. unfold zupd. destruct (_ =? _); [exact Hz|apply g10].
    - intros _ M. rewrite zupd_eq. destruct Ha as [[-> Na]| -> ]; [apply g11; assumption|reflexivity].
    - rewrite zupd_eq. exact Hfo.
    - intros k lb Hk. apply g14. destruct Hk as [Hk|(Hk & _)]; [left; exact Hk|right; split; [exact Hk|right; exact F]].
  Qed.

  (** steps of the caller that touch nothing *)
  Lemma main_light s p : GInv s -> filling (mainpc s) = false -> filling p = false -> mainpc s <> MGet -> p <> MGet ->
    (forall t, p <> MRun t) ->
    (p = MComplete -> forall k P, k = slotArg s (here s) -> Ready k (slots s (here s)) (tp s (here s)) (rlog s) P -> all_done k P) ->
    GInv (set_main s p).
  Proof.
    intros G F Fp Ng Np Nr Hc. pose proof G as [g1 g2 g3 g4 g5 g6 g7 g8 g9 g10 g11 g12 g13 g14 g15].
    split; unfold here in *; cbn [call_no MainWorkIndex PoolWorkIndex PoolWorkIndexCompleted mainpc rlog returned slots slotArg wpc set_main]; try assumption.
    - rewrite g2. destruct (mainpc s); try congruence; destruct p; try congruence; reflexivity.
    - intros sl [U1 _]. cbn [slotArg set_main] in U1.
      assert (U : usable s sl) by (split; [exact U1|intros [E _]; congruence]).
      destruct (g9 sl U) as (A & B & P & R & AD). split; [exact A|]. split; [exact B|]. exists P. split.
      + eapply ready_frame; [exact R| |reflexivity]. apply tp_main; [reflexivity|exact Nr].
      + intros [Fi|Fi]; [apply AD; left; exact Fi|]. cbn [mainpc set_main] in Fi.
        destruct (Z.eq_dec (slotArg s sl) (call_no s)) as [E|E].
        * assert (Em : call_no s = MainWorkIndex s) by (rewrite g2; destruct (mainpc s); try congruence; lia).
          assert (Es : sl = slot_of (MainWorkIndex s)) by (rewrite <- Em, <- E; symmetry; exact A).
          apply Hc with (k := slotArg s sl); [exact Fi|rewrite <- Es; reflexivity|rewrite <- Es; exact R].
        * apply AD. left. rewrite g2 in B. destruct (mainpc s); lia.
    - intros _. apply g11. intros E'. rewrite E' in F. discriminate.
    - destruct p; cbn in Fp; try discriminate; exact I.
    - intros k lb [Hk|(Hk & [Hp|Hp])]; [apply g14; left; exact Hk|congruence|congruence].
  Qed.

  Lemma blocks_model k : (clen k + (WORK_ITEM_CHUNK - 1)) / WORK_ITEM_CHUNK = blocks (clen k).
  Proof. reflexivity. Qed.

  Lemma mstep_inv s : GInv s -> no_intruder s -> no_intruder (mstep clen cwake s) -> GInv (mstep clen cwake s).
  Proof.
    intros G NI NI'.
    assert (Sl : forall it p, filling (mainpc s) = true -> mainpc s <> MArg -> filling p = true -> ZigZag it = false -> fill_ok (call_no s) it p -> p <> MArg ->
      GInv (mkR (MainWorkIndex s) (PoolWorkIndex s) (PoolWorkIndexCompleted s) (zupd (slots s) (here s) it) (slotArg s) (call_no s) p (wpc s) (rlog s) (returned s))).
    { intros it p F Nm Fp Hz Hf Na.
      pose proof (main_fill s it (slotArg s (here s)) p G NI F Fp (or_introl (conj eq_refl Nm)) Hz Hf Na) as X.
      destruct X as [g1 g2 g3 g4 g5 g6 g7 g8 g9 g10 g11 g12 g13 g14 g15]. cbn [call_no MainWorkIndex PoolWorkIndex PoolWorkIndexCompleted mainpc rlog returned slots slotArg wpc] in *.
      assert (Id : forall sl, zupd (slotArg s) (here s) (slotArg s (here s)) sl = slotArg s sl)
        by (intros sl; unfold zupd; destruct (Z.eqb_spec sl (here s)) as [->|]; reflexivity).
      split; cbn [call_no MainWorkIndex PoolWorkIndex PoolWorkIndexCompleted mainpc rlog returned slots slotArg wpc]; try assumption.
      - intros c sl c0 H. rewrite <- Id. eapply g6; eauto.
      - intros c sl c0 H. rewrite <- Id. eapply g7; eauto.
      - intros c sl a t c0 H. rewrite <- Id. eapply g8; eauto.
      - intros sl [U1 U2]. rewrite <- Id. apply g9. split; [cbn [slotArg] in *; rewrite Id; exact U1|exact U2].
      - intros N M. etransitivity; [|exact (g11 N M)]. symmetry. apply Id. }
    pose proof (G_fill s G) as Fo. pose proof (G_zz s G (here s)) as Zz. pose proof (G_idx s G) as Ix. pose proof (G_no s G) as Gn. pose proof (Hwake (call_no s)) as HT.
    unfold mstep in *. fold (here s) in *.
    destruct (mainpc s) as [ | | | | | | | |i|i| | |t| | ] eqn:E; cbn [fill_ok] in Fo.
    - (* MGet *)
      destruct G as [g1 g2 g3 g4 g5 g6 g7 g8 g9 g10 g11 g12 g13 g14 g15]. rewrite E in *.
      split; cbn [call_no MainWorkIndex PoolWorkIndex PoolWorkIndexCompleted mainpc rlog returned slots slotArg wpc]; try assumption.
      + lia.
      + lia.
      + intros c H. specialize (g5 c H). lia.
      + intros sl [U1 _]. cbn [slotArg] in U1.
        destruct (g9 sl) as (A & B & P & R & AD); [split; [exact U1|rewrite E; intros [X _]; discriminate]|].
        split; [exact A|]. split; [lia|]. exists P. split.
        * eapply ready_frame; [exact R| |reflexivity]. apply tp_main; [reflexivity|discriminate].
        * intros Fi. apply AD. left. lia.
      + intros X _. exfalso. apply X. reflexivity.
      + intros k lb Hk. apply g14. destruct Hk as [Hk|(Hk & _)]; [left; exact Hk|right; split; [exact Hk|left; reflexivity]].
    - (* MArg *)
      pose proof (main_fill s (slots s (here s)) (call_no s) MTotal G NI) as X. rewrite E in X.
      assert (Em : call_no s = MainWorkIndex s) by lia.
      specialize (X eq_refl eq_refl (or_intror Em) Zz I ltac:(discriminate)).
      destruct X as [g1 g2 g3 g4 g5 g6 g7 g8 g9 g10 g11 g12 g13 g14 g15]. cbn [call_no MainWorkIndex PoolWorkIndex PoolWorkIndexCompleted mainpc rlog returned slots slotArg wpc] in *.
      assert (Id : forall sl, zupd (slots s) (here s) (slots s (here s)) sl = slots s sl)
        by (intros sl; unfold zupd; destruct (Z.eqb_spec sl (here s)) as [->|]; reflexivity).
      split; cbn [call_no MainWorkIndex PoolWorkIndex PoolWorkIndexCompleted mainpc rlog returned slots slotArg wpc]; try assumption.
      + intros sl U. specialize (g9 sl U). rewrite Id in g9. exact g9.
      + intros sl. rewrite <- Id. apply g10.
    - (* MTotal *) apply (Sl (set_total (clen (call_no s)) (slots s (here s))) MWake); try reflexivity; try discriminate; exact Zz.
    - (* MWake *) apply (Sl (set_wake (cwake (call_no s)) (slots s (here s))) MLast); try reflexivity; try discriminate; exact Zz.
    - (* MLast *) apply (Sl (set_last _ (slots s (here s))) MComp); try reflexivity; try discriminate; [exact Zz|].
      cbn [fill_ok ThreadWakeup BlockLast set_last]. split; [exact Fo|reflexivity].
    - (* MComp *) apply (Sl (set_completed (slots s (here s)) 0) MNext); try reflexivity; try discriminate; [exact Zz|].
      cbn [fill_ok ThreadWakeup BlockLast BlocksCompleted set_completed]. tauto.
    - (* MNext *) apply (Sl (set_next (slots s (here s)) 0) MSize); try reflexivity; try discriminate; [exact Zz|].
      cbn [fill_ok ThreadWakeup BlockLast BlocksCompleted set_next]. tauto.
    - (* MSize *) apply (Sl (set_size WORK_ITEM_CHUNK (slots s (here s))) (MCur 0)); try reflexivity; try discriminate; [exact Zz|].
      cbn [fill_ok ThreadWakeup BlockLast BlocksCompleted set_size]. repeat (split; [tauto|]). split; [lia|]. intros j Hj. lia.
    - (* MCur *)
      destruct Fo as (f1 & f2 & f3 & f4 & f5).
      destruct (Z.ltb_spec i (cwake (call_no s) + 1)) as [L|L].
      + apply (Sl (set_cur (slots s (here s)) i 0) (MLastBlock i)); try reflexivity; try discriminate; [exact Zz|].
        cbn [fill_ok ThreadWakeup BlockLast BlocksCompleted WorkerChannel set_cur]. repeat (split; [assumption|]). split; [lia|].
        split; [|rewrite zupd_eq; reflexivity].
        intros j Hj. unfold chan_ok. cbn [WorkerChannel set_cur]. rewrite zupd_neq by lia. apply f5. lia.
      + assert (i = cwake (call_no s) + 1) as -> by lia.
        pose proof (main_fill s (slots s (here s)) (slotArg s (here s)) MMark G NI) as X. rewrite E in X.
        assert (Fm : fill_ok (call_no s) (slots s (here s)) MMark) by (cbn [fill_ok]; repeat (split; [assumption|]); intros j Hj; apply f5; lia).
        assert (Nm : MCur (cwake (call_no s) + 1) <> MArg) by discriminate.
        specialize (X eq_refl eq_refl (or_introl (conj eq_refl Nm)) Zz Fm ltac:(discriminate)).
        destruct X as [g1 g2 g3 g4 g5 g6 g7 g8 g9 g10 g11 g12 g13 g14 g15]. cbn [call_no MainWorkIndex PoolWorkIndex PoolWorkIndexCompleted mainpc rlog returned slots slotArg wpc] in *.
        assert (Id : forall sl, zupd (slots s) (here s) (slots s (here s)) sl = slots s sl)
          by (intros sl; unfold zupd; destruct (Z.eqb_spec sl (here s)) as [->|]; reflexivity).
        assert (Ia : forall sl, zupd (slotArg s) (here s) (slotArg s (here s)) sl = slotArg s sl)
          by (intros sl; unfold zupd; destruct (Z.eqb_spec sl (here s)) as [->|]; reflexivity).
        split; cbn [call_no MainWorkIndex PoolWorkIndex PoolWorkIndexCompleted mainpc rlog returned slots slotArg wpc set_main]; try assumption.
        * intros c sl c0 H. rewrite <- Ia. eapply g6; eauto.
        * intros c sl c0 H. rewrite <- Ia. eapply g7; eauto.
        * intros c sl a t c0 H. rewrite <- Ia. eapply g8; eauto.
        * intros sl [U1 U2]. rewrite <- Ia, <- Id. apply g9. split; [cbn [slotArg] in *; rewrite Ia; exact U1|exact U2].
        * intros sl. rewrite <- Id. apply g10.
        * intros N M. etransitivity; [|exact (g11 N M)]. symmetry. apply Ia.
    - (* MLastBlock *)
      destruct Fo as (f1 & f2 & f3 & f4 & f5 & f6).
      apply (Sl (set_lastblock i (BlockLast (slots s (here s)) / (cwake (call_no s) + 1) + (if i <? BlockLast (slots s (here s)) mod (cwake (call_no s) + 1) then 1 else 0)) (slots s (here s))) (MCur (i + 1)));
        try reflexivity; try discriminate; [exact Zz|].
      cbn [fill_ok ThreadWakeup BlockLast BlocksCompleted WorkerChannel set_lastblock]. repeat (split; [assumption|]). split; [lia|].
      intros j Hj. unfold chan_ok. cbn [WorkerChannel set_lastblock]. unfold zupd. destruct (Z.eqb_spec j i) as [->|]; [|apply f5; lia].
      cbn [LastBlock CurrentBlock]. split; [rewrite f2; reflexivity|exact f6].
    - (* MMark *)
      destruct Fo as (f1 & f2 & f3 & f4).
      apply (Sl (set_cur (slots s (here s)) (cwake (call_no s) + 1) (-1)) MSet); try reflexivity; try discriminate; [exact Zz|].
      cbn [fill_ok ThreadWakeup BlockLast BlocksCompleted WorkerChannel set_cur]. repeat (split; [assumption|]).
      intros j Hj. unfold chan_ok. cbn [WorkerChannel set_cur]. rewrite zupd_neq by lia. apply f4. exact Hj.
    - (* MSet *)
      destruct Fo as (f1 & f2 & f3 & f4). unfold no_intruder in NI; rewrite E in NI; specialize (NI eq_refl).
      destruct G as [g1 g2 g3 g4 g5 g6 g7 g8 g9 g10 g11 g12 g13 g14 g15]. rewrite E in *.
      assert (Em : MainWorkIndex s = call_no s) by lia.
      assert (Ea : slotArg s (here s) = call_no s) by (rewrite <- Em; apply g11; [discriminate|lia]).
      split; cbn [call_no MainWorkIndex PoolWorkIndex PoolWorkIndexCompleted mainpc rlog returned slots slotArg wpc]; try assumption.
      + lia.
      + intros sl [U1 _]. cbn [slotArg] in U1. destruct (Z.eq_dec sl (here s)) as [->|Ne].
        * rewrite Ea. split; [rewrite <- Em; reflexivity|]. split; [lia|]. exists (fun _ => Fresh). split.
          -- split; try assumption.
             ++ intros i Hi. destruct (f4 i Hi) as [A B]. split; [exact A|rewrite B; lia].
             ++ intros c t. unfold tp, here. cbn [mainpc wpc MainWorkIndex]. destruct (Z.eqb_spec c 0) as [->|N0].
                ** rewrite Z.eqb_refl. intros X; injection X as <-. split; [lia|]. cbn [thread_ok]. lia.
                ** intros X. exfalso. apply (NI c N0). destruct (wpc s c) as [| | | |s' a t0]; try discriminate.
                   destruct (Z.eqb_spec s' (slot_of (MainWorkIndex s))) as [Es|]; [exact Es|discriminate].
             ++ intros i b Hi Hb. destruct (f4 i Hi) as [A B]. rewrite B. split; [lia|reflexivity].
             ++ intros lb. cbn [seen]. rewrite g14; [destruct (_ && _); reflexivity|]. right. split; [reflexivity|right; reflexivity].
             ++ rewrite f3. unfold count_done. cbn [is_done]. clear. induction (zrange 0 (blocks (clen (call_no s)))); [reflexivity|assumption].
          -- intros [F|F]; [cbn [call_no] in F; lia|discriminate].
        * destruct (g9 sl) as (A & B & P & R & AD); [split; [exact U1|intros [_ X]; exact (Ne X)]|].
          split; [exact A|]. split; [exact B|]. exists P. split.
          -- eapply ready_frame; [exact R| |reflexivity]. intros c t. unfold tp, here. cbn [mainpc wpc MainWorkIndex]. destruct (c =? 0); [|auto].
             destruct (Z.eqb_spec sl (slot_of (MainWorkIndex s))); [contradiction|discriminate].
          -- intros [F|F]; [apply AD; left; exact F|discriminate].
      + intros _ M. rewrite <- Em in Ea. exact Ea.
      + exact I.
      + intros k lb [Hk|(Hk & [Hp|Hp])]; [apply g14; left; exact Hk|discriminate|discriminate].
    - (* MRun *)
      assert (Em : MainWorkIndex s = call_no s) by lia.
      assert (Ea : slotArg s (here s) = call_no s) by (rewrite <- Em; apply (G_cur s G); [rewrite E; discriminate|lia]).
      assert (U : usable s (here s)) by (split; [lia|rewrite E; intros [X _]; discriminate]).
      assert (Run : forall s1 t1, tstep s 0 (here s) (call_no s) t = (s1, t1) -> GInv (set_main s1 (MRun t1))).
      { intros s1 t1 E0. destruct (tstep_spec _ _ _ _ _ _ _ E0) as (it' & log' & Hi & e1 & e2 & e3 & e4 & e5 & e6 & e7 & e8 & e9 & e10).
        assert (Ht : tp s (here s) 0 = Some t) by (unfold tp; rewrite E, (Z.eqb_refl (here s)); reflexivity).
        rewrite <- Ea in Hi.
        destruct (slots_step s (set_main s1 (MRun t1)) 0 (here s) t it' log' t1 G U Ht Hi) as (s1' & s2' & s3' & s4');
          try (cbn [slots rlog slotArg MainWorkIndex call_no mainpc set_main]; first [assumption | rewrite E; reflexivity | discriminate]).
        { intros x c'. unfold tp, here. cbn [mainpc wpc MainWorkIndex set_main]. rewrite e3, e9, E. 
          destruct (Z.eqb_spec c' 0) as [->|]; [|rewrite andb_false_r; reflexivity]. rewrite andb_true_r. destruct (x =? _); reflexivity. }
        destruct G as [g1 g2 g3 g4 g5 g6 g7 g8 g9 g10 g11 g12 g13 g14 g15]. rewrite E in *.
        split; try assumption; unfold here; cbn [call_no MainWorkIndex PoolWorkIndex PoolWorkIndexCompleted mainpc returned slotArg set_main wpc];
          rewrite ?e3, ?e4, ?e5, ?e6, ?e7, ?e9, ?e10; try assumption.
        - intros _ M. apply g11; [discriminate|exact M]. }
      destruct t; lazymatch goal with
        | |- GInv (set_main s MWait) => idtac
        | |- context [tstep ?a ?b ?d ?e ?f] => destruct (tstep a b d e f) as [s1 t1] eqn:E0; exact (Run s1 t1 eq_refl)
        end.
      apply main_light; rewrite ?E; try reflexivity; try discriminate. exact G.
    - (* MWait *)
      destruct (Z.ltb_spec (BlocksCompleted (slots s (here s))) (BlockLast (slots s (here s)))) as [L|L]; [exact G|].
      apply main_light; rewrite ?E; try reflexivity; try discriminate; [exact G|].
      intros _ k P Ek R lb Hlb. rewrite (R_last _ _ _ _ _ R), (R_done _ _ _ _ _ R) in L.
      eapply count_done_full; [apply blocks_nonneg|exact L|exact Hlb].
    - (* MComplete *)
      destruct G as [g1 g2 g3 g4 g5 g6 g7 g8 g9 g10 g11 g12 g13 g14 g15].
      assert (Em : MainWorkIndex s = call_no s) by (rewrite E in g2; lia).
      assert (Ea : slotArg s (here s) = call_no s) by (rewrite <- Em; apply g11; [rewrite E; discriminate|lia]).
      split; cbn [call_no MainWorkIndex PoolWorkIndex PoolWorkIndexCompleted mainpc rlog returned slots slotArg wpc]; try assumption.
      + lia.
      + lia.
      + lia.
      + intros sl [U1 _]. cbn [slotArg] in U1.
        destruct (g9 sl) as (A & B & P & R & AD); [split; [exact U1|rewrite E; intros [X _]; discriminate]|].
        split; [exact A|]. split; [exact B|]. exists P. split.
        * eapply ready_frame; [exact R| |reflexivity]. apply tp_main; [reflexivity|discriminate].
        * intros _. apply AD. right. exact E.
      + intros _. apply g11. rewrite E. discriminate.
      + intros k lb Hk. destruct (Z.eq_dec k (call_no s)) as [->|]; [|apply g13; lia].
        destruct (g9 (here s)) as (A & B & P & R & AD); [split; [lia|rewrite E; intros [X _]; discriminate]|].
        rewrite Ea in *. rewrite (R_log _ _ _ _ _ R). unfold valid. specialize (AD (or_intror E)).
        destruct (Z.leb_spec 0 lb), (Z.ltb_spec lb (blocks (clen (call_no s)))); cbn [andb]; try reflexivity.
        rewrite AD by lia. reflexivity.
      + intros k lb Hk. apply g14. left. lia.
      + intros k. rewrite in_app_iff, g15. cbn [In]. lia.
  Qed.

  Lemma init_inv : GInv ring_init.
  Proof.
    split; cbn [ring_init call_no MainWorkIndex PoolWorkIndex PoolWorkIndexCompleted mainpc rlog returned slots slotArg wpc]; try discriminate; try lia; try contradiction; auto.
    all: try (intros; unfold here, fill_ok; cbn; lia).
    all: try exact I.
    - intros sl [U _]. cbn [ring_init slotArg] in U. lia.
  Qed.

  Lemma run_inv sched : Forall (fun c => 0 <= c) sched -> (forall i, no_intruder (rrun clen cwake ring_init (firstn i sched))) ->
    GInv (rrun clen cwake ring_init sched).
  Proof.
    induction sched as [|c sched IH] using rev_ind; intros HF NI; [exact init_inv|].
    apply Forall_app in HF as [HF Hc]. inversion Hc as [|? ? Hc0 _]; subst.
    assert (G : GInv (rrun clen cwake ring_init sched)).
    { apply IH; [exact HF|]. intros i. destruct (Nat.le_gt_cases i (length sched)) as [L|L].
      - specialize (NI i). rewrite firstn_app in NI. replace (i - length sched)%nat with 0%nat in NI by lia. rewrite firstn_O, app_nil_r in NI. exact NI.
      - specialize (NI (length sched)). rewrite firstn_app, firstn_all, Nat.sub_diag, firstn_O, app_nil_r in NI. rewrite firstn_all2 by lia. exact NI. }
    assert (NI0 : no_intruder (rrun clen cwake ring_init sched)).
    { specialize (NI (length sched)). rewrite firstn_app, firstn_all, Nat.sub_diag, firstn_O, app_nil_r in NI. exact NI. }
    assert (NI1 : no_intruder (rrun clen cwake ring_init (sched ++ [c]))).
    { specialize (NI (length (sched ++ [c]))). rewrite firstn_all in NI. exact NI. }
    unfold rrun in *. rewrite fold_left_app in *. cbn [fold_left] in *. unfold rstep in *.
    destruct (Z.eqb_spec c 0); [apply mstep_inv; assumption|]. apply wstep_inv; try assumption. lia.
  Qed.
End Fine.
