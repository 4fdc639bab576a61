(** Workers_Props.v - C88: atop_setworkers and atop_info are registers, one per hooked function and machine type. *)
From Coq Require Import String.
From Verif Require Import Base Threads_Model Kernel_Model Hooks_Model Hooks_Props Dispatch_Model Dispatch_Props Workers_Model.
Local Open Scope Z_scope.

(** what the process answers to [q] after the calls [h], oldest first *)
Definition answer (obj : string -> Z) (has_loop : Z -> Z -> Z -> bool) (h : list wcall) (q : wcall) : wreply := snd (step obj has_loop (run obj has_loop wstart h) q).
(** int64 has the two dtype numbers 7 ('l') and 9 ('q'), uint64 has 8 and 10; every other type has one *)
Definition same_machine_type (d d' : Z) : bool :=
  (d =? d') || ((d =? 7) && (d' =? 9)) || ((d =? 9) && (d' =? 7)) || ((d =? 8) && (d' =? 10)) || ((d =? 10) && (d' =? 8)).
Definition key_eqb (name : string) (d : Z) (k : string * Z) : bool := String.eqb name (fst k) && (d =? snd k).
(** the functions hooked with 7 threads; the others start with 3 *)
Definition trig_names : list string :=
  ["sin"; "cos"; "tan"; "arcsin"; "arccos"; "arctan"; "sinh"; "cosh"; "tanh"; "arcsinh"; "arccosh"; "arctanh"; "cbrt"; "exp"; "exp2"; "expm1";
   "log"; "log2"; "log10"; "log1p"]%string.
(** the pairs initialize() hooks, written out: NumPy's loops for the dtypes 0 to 12, less those pnumpy leaves alone *)
Definition pairs (name : string) : list Z :=
  if existsb (String.eqb name) ["power"; "remainder"; "positive"; "square"; "reciprocal"; "fabs"]%string then []
  else if existsb (String.eqb name) ["logical_and"; "logical_or"]%string then [0]
  else if String.eqb name "floor_divide" then [11; 12]
  else if String.eqb name "sign" then [1; 3; 5; 7; 9; 11; 12]
  else match assoc name numpy_loops with Some ds => ds | None => [] end.
Section Spec.
  Variable obj : string -> Z.
  Variable has_loop : Z -> Z -> Z -> bool.
  (** atop_info() lists the pair *)
  Definition lists (h : list wcall) (name : string) (d : Z) : bool :=
    match answer obj has_loop h WInfoAll with WKeys ks => existsb (key_eqb name d) ks | _ => false end.
  (** the last of atop_enable and atop_disable in the calls, newest first *)
  Fixpoint on (newest_first : list wcall) : bool :=
    match newest_first with [] => true | WEnable :: _ => true | WDisable :: _ => false | _ :: r => on r end.
  (** atop_setworkers('name', d, w) takes effect after the calls [h] *)
  Definition accepted (h : list wcall) (name : string) (d w : Z) : bool := on (rev h) && lists h name d && (0 <=? w) && (w <? 64).
  (** the last accepted request for the function and the machine type *)
  Fixpoint workers (newest_first : list wcall) (name : string) (d : Z) : Z :=
    match newest_first with
    | [] => if existsb (String.eqb name) trig_names then 7 else 3
    | WSetWorkers name' d' w :: r => if String.eqb name name' && same_machine_type d d' && accepted (rev r) name' d' w then w else workers r name d
    | _ :: r => workers r name d
    end.
End Spec.

(** ---------- proofs ---------- *)
(** every hooked loop and every key of the dictionary *)
Definition keyed (obj : string -> Z) (h : hooks) : Prop :=
  (forall u d o c op a, loops h u d o = Stub c op a -> exists name, obj name = u /\ In (name, d, (c, op, a)) (dict h)) /\
  (forall name d c op a, In (name, d, (c, op, a)) (dict h) -> a = dtype_to_atop d /\ In d (dtypes_of c) /\ In (name, op) (mapping c) /\ wanted c op a <> None).
Section Keyed.
  Variable obj : string -> Z.
  Variable has_loop : Z -> Z -> Z -> bool.
  Lemma keyed_dtypes c name op : In (name, op) (mapping c) -> forall ds h, incl ds (dtypes_of c) -> keyed obj h -> keyed obj (fst (hook_dtypes obj has_loop wanted c name op ds h)).
  Proof.
    intros Hin. induction ds as [|d ds IH]; intros h Id W; cbn [hook_dtypes]; [exact W|].
    assert (Id' : incl ds (dtypes_of c)) by (intros x Hx; apply Id; now right).
    unfold hook_dtype. cbv zeta. destruct (wanted c op (dtype_to_atop d)) as [oa|] eqn:Ew; [|now apply IH].
    destruct (has_loop (obj name) d (out_dtype d oa)); [|exact W]. apply IH; [exact Id'|]. destruct W as [W1 W2]. split.
    - intros u d0 o c0 op0 a. cbn [replace loops dict]. destruct ((u =? obj name) && (d0 =? d) && (o =? out_dtype d oa)) eqn:E.
      + apply andb_true_iff in E. destruct E as [E E3]. apply andb_true_iff in E. destruct E as [E1 E2]. apply Z.eqb_eq in E1, E2, E3. subst u d0 o.
        intros H. injection H as <- <- <-. exists name. split; [reflexivity|now left].
      + intros H. destruct (W1 _ _ _ _ _ _ H) as (n & H1 & H2). exists n. split; [exact H1|now right].
    - intros n d0 c0 op0 a. cbn [replace dict]. intros [H|H]; [|now apply W2 in H]. injection H as <- <- <- <- <-. repeat split; auto; [apply Id; now left|congruence].
  Qed.
  Lemma keyed_names c ds : incl ds (dtypes_of c) -> forall m h, incl m (mapping c) -> keyed obj h -> keyed obj (fst (hook_names obj has_loop wanted c m ds h)).
  Proof.
    intros Id. induction m as [|[name op] m IH]; intros h Im W; cbn [hook_names]; [exact W|].
    pose proof (keyed_dtypes c name op (Im _ (or_introl eq_refl)) ds h Id W) as W'. destruct (hook_dtypes obj has_loop wanted c name op ds h) as [h' []]; [|exact W'].
    apply IH; [intros x Hx; apply Im; now right|exact W'].
  Qed.
  Lemma keyed_all : forall l h, (forall c m ds, In (c, m, ds) l -> m = mapping c /\ ds = dtypes_of c) -> keyed obj h -> keyed obj (fst (hook_all_ok obj has_loop l h)).
  Proof.
    induction l as [|[[c m] ds] l IH]; intros h H W; cbn [hook_all_ok]; [exact W|].
    assert (W' : keyed obj (fst (hook_names obj has_loop wanted c m ds h))).
    { destruct (H c m ds (or_introl eq_refl)) as [-> ->]. apply keyed_names; [apply incl_refl|apply incl_refl|exact W]. }
    destruct (hook_names obj has_loop wanted c m ds h) as [h' []]; [|exact W']. apply IH; [|exact W']. intros c0 m0 ds0 Hin. apply H. now right.
  Qed.
  Lemma keyed_fresh : keyed obj fresh.
  Proof. split; [discriminate|intros ? ? ? ? ? []]. Qed.
  Lemma keyed_newinit avx2 p : keyed obj (hooked p) -> keyed obj (hooked (fst (newinit obj has_loop avx2 p))).
  Proof.
    intros K. unfold newinit. destruct (negb (initialized p) && avx2); [|destruct avx2; exact K].
    pose proof (keyed_all all_ufuncs (hooked p) all_ufuncs_ok K) as K'. destruct (hook_all_ok obj has_loop all_ufuncs (hooked p)) as [h ok]. exact K'.
  Qed.
End Keyed.

(** a name stands for one operation: "rint" is listed twice, but nothing is hooked for its second code *)
Definition allcats : list cat := [Binary; Compare; Unary; Trig].
Lemma one_operation_all :
  forallb (fun c => forallb (fun e => forallb (fun c' => forallb (fun e' =>
    negb (String.eqb (fst e) (fst e')) || (cat_eqb c c' && (snd e =? snd e')) || (cat_eqb c Unary && (snd e =? 12)) || (cat_eqb c' Unary && (snd e' =? 12)))
    (mapping c')) allcats) (mapping c)) allcats = true.
Proof. vm_compute. reflexivity. Qed.
Lemma cat_eqb_eq c c' : cat_eqb c c' = true <-> c = c'.
Proof. destruct c, c'; cbn; split; intros H; congruence. Qed.
Lemma in_allcats c : In c allcats.
Proof. destruct c; cbn; auto. Qed.
Lemma rint_not_wanted a : wanted Unary 12 a = None.
Proof. reflexivity. Qed.
Lemma one_operation name c op a c' op' a' : In (name, op) (mapping c) -> In (name, op') (mapping c') -> wanted c op a <> None -> wanted c' op' a' <> None -> c = c' /\ op = op'.
Proof.
  intros H H' W W'. pose proof one_operation_all as F. rewrite forallb_forall in F. specialize (F c (in_allcats c)). rewrite forallb_forall in F. specialize (F _ H).
  rewrite forallb_forall in F. specialize (F c' (in_allcats c')). rewrite forallb_forall in F. specialize (F _ H'). cbn [fst snd] in F. rewrite String.eqb_refl in F. cbn [negb orb] in F.
  apply orb_true_iff in F. destruct F as [F|F]; [apply orb_true_iff in F; destruct F as [F|F]|]; apply andb_true_iff in F; destruct F as [F1 F2]; apply cat_eqb_eq in F1; apply Z.eqb_eq in F2.
  - auto.
  - subst. rewrite rint_not_wanted in W. congruence.
  - subst. rewrite rint_not_wanted in W'. congruence.
Qed.
Lemma one_name name name' c op : In (name, op) (mapping c) -> In (name', op) (mapping c) -> name = name'.
Proof.
  intros B1 B2. assert (N : NoDup (map snd (mapping c))) by (destruct c; apply distinct_ok; reflexivity). revert B1 B2 N. generalize (mapping c) as m.
  induction m as [|[n0 o0] m IH]; intros B1 B2 N; [destruct B1|]. cbn [map snd] in N. inversion N as [|x y Hni N']; subst.
  destruct B1 as [E1|B1], B2 as [E2|B2]; [congruence|injection E1 as -> ->; exfalso; apply Hni; apply (in_map snd m (name', op) B2)
    |injection E2 as -> ->; exfalso; apply Hni; apply (in_map snd m (name, op) B1)|now apply IH].
Qed.
Lemma same_machine_atop d d' : In d dtypes -> In d' dtypes -> same_machine_type d d' = (dtype_to_atop d =? dtype_to_atop d').
Proof.
  assert (F : forallb (fun d => forallb (fun d' => Bool.eqb (same_machine_type d d') (dtype_to_atop d =? dtype_to_atop d')) dtypes) dtypes = true) by (vm_compute; reflexivity).
  intros H H'. rewrite forallb_forall in F. specialize (F d H). rewrite forallb_forall in F. apply eqb_prop. now apply F.
Qed.
Lemma dtypes_of_dtypes c d : In d (dtypes_of c) -> In d dtypes.
Proof. destruct c; cbn [dtypes_of]; intros H; [exact H|exact H|exact H|]. cbn in H |- *. intuition lia. Qed.
Lemma trig_names_right name c op a : In (name, op) (mapping c) -> wanted c op a <> None -> existsb (String.eqb name) trig_names = match c with Trig => true | _ => false end.
Proof.
  assert (F : forallb (fun c => forallb (fun e => Bool.eqb (existsb (String.eqb (fst e)) trig_names) (match c with Trig => true | _ => false end)) (mapping c)) allcats = true)
    by (vm_compute; reflexivity).
  intros H _. rewrite forallb_forall in F. specialize (F c (in_allcats c)). rewrite forallb_forall in F. specialize (F _ H). apply eqb_prop. exact F.
Qed.

(** the dictionary: a pair's slot *)
Lemma found obj h name d c op a : keyed obj h -> In (name, d, (c, op, a)) (dict h) -> get_from_dict h name d = Some (c, op, a).
Proof.
  intros [_ K] Hin. unfold get_from_dict. destruct (find _ (dict h)) as [[[n x] [[c0 op0] a0]]|] eqn:E.
  - apply find_some in E. cbn [fst snd] in E. destruct E as [E1 E2]. apply andb_true_iff in E2. destruct E2 as [E2 E3]. apply String.eqb_eq in E2. apply Z.eqb_eq in E3. subst n x. cbn [snd].
    destruct (K _ _ _ _ _ Hin) as (A1 & _ & B1 & W1). destruct (K _ _ _ _ _ E1) as (A2 & _ & B2 & W2). destruct (one_operation _ _ _ _ _ _ _ B1 B2 W1 W2). congruence.
  - pose proof (find_none _ _ E _ Hin) as N. cbn [fst snd] in N. rewrite String.eqb_refl, Z.eqb_refl in N. discriminate.
Qed.
Lemma found_inv h name d c op a : get_from_dict h name d = Some (c, op, a) -> In (name, d, (c, op, a)) (dict h).
Proof.
  unfold get_from_dict. destruct (find _ (dict h)) as [[[n x] s]|] eqn:E; [|discriminate]. cbn [snd]. intros H. injection H as ->.
  apply find_some in E. cbn [fst snd] in E. destruct E as [E1 E2]. apply andb_true_iff in E2. destruct E2 as [E2 E3]. apply String.eqb_eq in E2. apply Z.eqb_eq in E3. now subst.
Qed.
Lemma listed_found h name d : existsb (key_eqb name d) (map fst (dict h)) = match get_from_dict h name d with Some _ => true | None => false end.
Proof.
  unfold get_from_dict. destruct (find _ (dict h)) as [e|] eqn:E.
  - apply find_some in E. destruct E as [E1 E2]. apply existsb_exists. exists (fst e). split; [now apply in_map|]. unfold key_eqb. rewrite String.eqb_sym, Z.eqb_sym. exact E2.
  - destruct (existsb _ _) eqn:X; [|reflexivity]. apply existsb_exists in X. destruct X as (k & X1 & X2). apply in_map_iff in X1. destruct X1 as (e & <- & X1).
    pose proof (find_none _ _ E _ X1) as N. unfold key_eqb in X2. rewrite String.eqb_sym, Z.eqb_sym in X2. cbn beta in N. congruence.
Qed.

Section History.
  Variable obj : string -> Z.
  Variable has_loop : Z -> Z -> Z -> bool.
  Notation after h := (run obj has_loop wstart h).
  Lemma run_snoc h : forall s q, run obj has_loop s (h ++ [q]) = fst (step obj has_loop (run obj has_loop s h) q).
  Proof. induction h as [|q0 h IH]; intros s q; cbn [run app]; [reflexivity|apply IH]. Qed.
  Definition first (name : string) : Z := if existsb (String.eqb name) trig_names then 7 else 3.
  Definition sound (h : list wcall) (s : wstate) : Prop :=
    keyed obj (hooked (proc s)) /\ (initialized (proc s) = false -> dict (hooked (proc s)) = [] /\ forall name d, workers obj has_loop (rev h) name d = first name) /\
    enabled s = on (rev h) /\
    forall name d c op a, In (name, d, (c, op, a)) (dict (hooked (proc s))) -> max_threads s c op a = workers obj has_loop (rev h) name d.
  Lemma lists_found h name d : (initialized (proc (after h)) = false -> dict (hooked (proc (after h))) = []) ->
    lists obj has_loop h name d = match get_from_dict (hooked (proc (after h))) name d with Some _ => true | None => false end.
  Proof.
    intros K. unfold lists, answer. cbn [step snd]. destruct (initialized _) eqn:E; [apply listed_found|]. unfold get_from_dict. rewrite (K eq_refl). reflexivity.
  Qed.
  Lemma sound_init h avx2 : sound h (after h) -> sound (h ++ [WInit avx2]) (fst (step obj has_loop (after h) (WInit avx2))).
  Proof.
    intros (K & I & E & M). unfold sound. rewrite rev_app_distr. cbn [rev app step].
    pose proof (keyed_newinit obj has_loop avx2 (proc (after h)) K) as K'. destruct (newinit obj has_loop avx2 (proc (after h))) as [p a] eqn:N. cbn [fst] in K' |- *.
    cbn [proc enabled max_threads on workers]. split; [exact K'|]. unfold newinit in N. destruct (negb (initialized (proc (after h))) && avx2) eqn:B.
    - destruct (hook_all_ok obj has_loop all_ufuncs (hooked (proc (after h)))) as [hk ok]. injection N as <- _. cbn [initialized hooked] in *.
      split; [discriminate|]. split; [exact E|]. intros name d c op x Hin.
      replace (existsb (slot_is c op x) (dict hk)) with true
        by (symmetry; apply existsb_exists; eexists; split; [exact Hin|]; cbn [slot_is]; rewrite !Z.eqb_refl, (proj2 (cat_eqb_eq c c) eq_refl); reflexivity).
      cbn [andb]. apply andb_true_iff in B. destruct B as [B _]. apply negb_true_iff in B. rewrite (proj2 (I B)).
      destruct (proj2 K' _ _ _ _ _ Hin) as (_ & _ & Hm & Hw). unfold first. rewrite (trig_names_right _ _ _ _ Hm Hw). destruct c; reflexivity.
    - assert (Q : p = proc (after h)) by (destruct avx2; injection N as <- _; reflexivity). rewrite Q in *. cbn [andb]. split; [exact I|]. split; [exact E|exact M].
  Qed.
  Ltac refused K I En M := split; [exact K|]; split; [intros Hi; split; [exact (proj1 (I Hi))|intros nm0 d1; rewrite andb_false_r; exact (proj2 (I Hi) nm0 d1)]|];
    split; [exact En|]; intros nm0 d1 c1 op1 a1 Hin; rewrite andb_false_r; exact (M nm0 d1 c1 op1 a1 Hin).
  Lemma sound_set h name0 d0 w : sound h (after h) -> sound (h ++ [WSetWorkers name0 d0 w]) (fst (step obj has_loop (after h) (WSetWorkers name0 d0 w))).
  Proof.
    intros (K & I & E & M). assert (I1 : initialized (proc (after h)) = false -> dict (hooked (proc (after h))) = []) by (intros H; apply (I H)).
    pose proof (lists_found h name0 d0 I1) as L. unfold sound. rewrite rev_app_distr. cbn [rev app step]. cbn [on workers]. rewrite rev_involutive.
    unfold accepted. rewrite <- E, L. destruct (enabled (after h)) eqn:En; [|cbn [andb fst]; refused K I En M].
    destruct (get_from_dict (hooked (proc (after h))) name0 d0) as [[[c op] a]|] eqn:G; [|cbn [andb fst]; refused K I En M].
    cbn [andb]. apply found_inv in G. destruct ((0 <=? w) && (w <? 64)) eqn:R.
    2:{ cbn [fst]. refused K I En M. }
    cbn [fst proc enabled max_threads]. split; [exact K|].
    split; [intros H; rewrite (I1 H) in G; destruct G|]. split; [reflexivity|]. intros name d c1 op1 a1 Hin. rewrite andb_true_r.
    destruct (proj2 K _ _ _ _ _ G) as (A1 & D1 & M1 & W1). destruct (proj2 K _ _ _ _ _ Hin) as (A2 & D2 & M2 & W2).
    rewrite (same_machine_atop d d0 (dtypes_of_dtypes _ _ D2) (dtypes_of_dtypes _ _ D1)), <- A1, <- A2.
    replace (cat_eqb c1 c && (op1 =? op)) with (String.eqb name name0); [now rewrite (M _ _ _ _ _ Hin)|].
    destruct (String.eqb_spec name name0) as [-> | Hn].
    - destruct (one_operation _ _ _ _ _ _ _ M1 M2 W1 W2) as [-> ->]. now rewrite Z.eqb_refl, (proj2 (cat_eqb_eq c1 c1) eq_refl).
    - symmetry. destruct (cat_eqb c1 c && (op1 =? op)) eqn:X; [|reflexivity]. apply andb_true_iff in X. destruct X as [X1 X2]. apply cat_eqb_eq in X1. apply Z.eqb_eq in X2. subst.
      exfalso. apply Hn. eapply one_name; eauto.
  Qed.
  Lemma all_sound : forall h, sound h (after h).
  Proof.
    induction h as [|q h IH] using rev_ind.
    - split; [apply keyed_fresh|]. split; [split; reflexivity|]. split; [reflexivity|]. intros ? ? ? ? ? [].
    - rewrite run_snoc. destruct q as [avx2| | |name0 d0 w|name0 d0|]; [now apply sound_init| | |now apply sound_set| |];
        destruct IH as (K & I & E & M); unfold sound; rewrite rev_app_distr; cbn [rev app on workers].
      + cbn [step fst proc enabled max_threads]. auto.
      + cbn [step fst proc enabled max_threads]. auto.
      + replace (fst (step obj has_loop (after h) (WInfo name0 d0))) with (after h) by (cbn [step]; destruct (get_from_dict _ _ _) as [[[? ?] ?]|]; reflexivity). auto.
      + cbn [step fst]. auto.
  Qed.
  Lemma lists_slot h name d : lists obj has_loop h name d = match get_from_dict (hooked (proc (after h))) name d with Some _ => true | None => false end.
  Proof. apply lists_found. intros H. exact (proj1 (proj1 (proj2 (all_sound h)) H)). Qed.
End History.

(** ---------- which pairs ---------- *)
Definition entered (h : hooks) (name : string) (d : Z) : Prop := exists s, In (name, d, s) (dict h).
Section Entered.
  Variable obj : string -> Z.
  Variable has_loop : Z -> Z -> Z -> bool.
  Lemma entered_dtypes c name op : forall ds h, available obj has_loop wanted c [(name, op)] ds ->
    (forall n x, entered h n x -> entered (fst (hook_dtypes obj has_loop wanted c name op ds h)) n x) /\
    forall d, In d ds -> wanted c op (dtype_to_atop d) <> None -> entered (fst (hook_dtypes obj has_loop wanted c name op ds h)) name d.
  Proof.
    induction ds as [|d ds IH]; intros h A; cbn [hook_dtypes]; [split; [auto|intros d []]|].
    assert (A' : available obj has_loop wanted c [(name, op)] ds) by (intros n o' x oa Hn Hx; apply A; [exact Hn|now right]).
    unfold hook_dtype. cbv zeta. destruct (wanted c op (dtype_to_atop d)) as [oa|] eqn:Ew.
    - rewrite (A name op d oa (or_introl eq_refl) (or_introl eq_refl) Ew).
      destruct (IH (replace (obj name) d (out_dtype d oa) c op (dtype_to_atop d) name h) A') as [B C]. split.
      + intros n x [s Hs]. apply B. exists s. cbn [replace dict]. now right.
      + intros d0 [<-|Hd] Hw; [|now apply C]. apply B. eexists. cbn [replace dict]. now left.
    - destruct (IH h A') as [B C]. split; [exact B|]. intros d0 [<-|Hd] Hw; [congruence|now apply C].
  Qed.
  Lemma entered_names c ds : forall m h, available obj has_loop wanted c m ds ->
    (forall n x, entered h n x -> entered (fst (hook_names obj has_loop wanted c m ds h)) n x) /\
    forall name op d, In (name, op) m -> In d ds -> wanted c op (dtype_to_atop d) <> None -> entered (fst (hook_names obj has_loop wanted c m ds h)) name d.
  Proof.
    induction m as [|[name op] m IH]; intros h A; cbn [hook_names]; [split; [auto|intros ? ? ? []]|].
    assert (A1 : available obj has_loop wanted c [(name, op)] ds) by (intros n o' x oa [Hn|[]] Hx; injection Hn as <- <-; apply A; [now left|exact Hx]).
    assert (A' : available obj has_loop wanted c m ds) by (intros n o' x oa Hn Hx; apply A; [now right|exact Hx]).
    destruct (entered_dtypes c name op ds h A1) as [B C]. destruct (install_dtypes obj has_loop wanted c name op ds h A1) as [D _].
    destruct (hook_dtypes obj has_loop wanted c name op ds h) as [h' ok]. cbn [fst snd] in B, C, D. subst ok.
    destruct (IH h' A') as [E F]. split; [auto|]. intros n o' d [Hn|Hn] Hd Hw; [|now apply (F n o')]. injection Hn as <- <-. apply E. now apply C.
  Qed.
  Lemma entered_all : forall l h, (forall c m ds, In (c, m, ds) l -> available obj has_loop wanted c m ds) ->
    (forall n x, entered h n x -> entered (fst (hook_all_ok obj has_loop l h)) n x) /\
    forall c m ds name op d, In (c, m, ds) l -> In (name, op) m -> In d ds -> wanted c op (dtype_to_atop d) <> None -> entered (fst (hook_all_ok obj has_loop l h)) name d.
  Proof.
    induction l as [|[[c m] ds] l IH]; intros h A; cbn [hook_all_ok]; [split; [auto|intros ? ? ? ? ? ? []]|].
    destruct (entered_names c ds m h (A c m ds (or_introl eq_refl))) as [B C]. destruct (install_names obj has_loop wanted c ds m h (A c m ds (or_introl eq_refl))) as [D _].
    destruct (hook_names obj has_loop wanted c m ds h) as [h' ok]. cbn [fst snd] in B, C, D. subst ok.
    destruct (IH h') as [E F]; [intros c0 m0 ds0 Hin; apply A; now right|]. split; [auto|].
    intros c0 m0 ds0 name op d [Hin|Hin] Hn Hd Hw; [|now apply (F c0 m0 ds0 name op)]. injection Hin as <- <- <-. apply E. now apply (C name op).
  Qed.
End Entered.
Definition asks_init (q : wcall) : bool := match q with WInit true => true | _ => false end.
Lemma proc_after obj has_loop : forall h, proc (run obj has_loop wstart h) =
  if existsb asks_init h then mkProc true (fst (hook_all_ok obj has_loop all_ufuncs fresh)) else started.
Proof.
  induction h as [|q h IH] using rev_ind; [reflexivity|]. rewrite run_snoc, existsb_app. cbn [existsb].
  destruct q as [avx2| | |n x w|n x|]; cbn [asks_init]; rewrite ?orb_false_r; cbn [step].
  - rewrite IH. unfold newinit. destruct avx2, (existsb asks_init h); cbn [orb initialized negb andb started hooked fst proc]; try reflexivity.
    destruct (hook_all_ok obj has_loop all_ufuncs fresh) as [hk ok]. reflexivity.
  - exact IH.
  - exact IH.
  - destruct (enabled _); [|exact IH]. destruct (get_from_dict _ _ _) as [[[? ?] ?]|]; [|exact IH]. destruct (_ && _); exact IH.
  - destruct (get_from_dict _ _ _) as [[[? ?] ?]|]; exact IH.
  - exact IH.
Qed.
Lemma pairs_right : forallb (fun name => forallb (fun d => Bool.eqb (hooks_it name d) (existsb (Z.eqb d) (pairs name))) dtypes) (flat_map (fun c => map fst (mapping c)) allcats) = true.
Proof. vm_compute. reflexivity. Qed.
Lemma pairs_listed : forallb (fun e => existsb (String.eqb (fst e)) (flat_map (fun c => map fst (mapping c)) allcats) && forallb (fun d => existsb (Z.eqb d) dtypes) (snd e)) numpy_loops = true.
Proof. vm_compute. reflexivity. Qed.
Lemma assoc_in_loops name ds : assoc name numpy_loops = Some ds -> In (name, ds) numpy_loops.
Proof. apply assoc_in. Qed.
Lemma pairs_dtypes name d : In d (pairs name) -> In d dtypes.
Proof.
  unfold pairs. destruct (existsb _ _); [intros []|]. destruct (existsb _ _); [intros [<-|[]]; cbn; auto|].
  destruct (String.eqb _ _); [intros H; cbn in H |- *; intuition lia|]. destruct (String.eqb _ _); [intros H; cbn in H |- *; intuition lia|].
  destruct (assoc name numpy_loops) as [ds|] eqn:E; [|intros []]. apply assoc_in in E. intros H.
  pose proof pairs_listed as F. rewrite forallb_forall in F. specialize (F _ E). cbn [fst snd] in F. apply andb_true_iff in F. destruct F as [_ F].
  rewrite forallb_forall in F. specialize (F d H). apply existsb_exists in F. destruct F as (x & F1 & F2). apply Z.eqb_eq in F2. now subst.
Qed.
Lemma pairs_unknown name d : existsb (String.eqb name) (flat_map (fun c => map fst (mapping c)) allcats) = false -> existsb (Z.eqb d) (pairs name) = false.
Proof.
  intros N. assert (A : forall n, existsb (String.eqb n) (flat_map (fun c => map fst (mapping c)) allcats) = true -> String.eqb name n = false)
    by (intros n H; destruct (String.eqb_spec name n); congruence).
  unfold pairs. cbn [existsb]. rewrite !A by (vm_compute; reflexivity). cbn [orb].
  destruct (assoc name numpy_loops) as [ds|] eqn:E; [|reflexivity]. apply assoc_in in E.
  pose proof pairs_listed as F. rewrite forallb_forall in F. specialize (F _ E). cbn [fst snd] in F. apply andb_true_iff in F. destruct F as [F _]. congruence.
Qed.
Lemma hooks_it_spec name d : hooks_it name d = true <-> exists c op, In (name, op) (mapping c) /\ In d (dtypes_of c) /\ wanted c op (dtype_to_atop d) <> None.
Proof.
  unfold hooks_it. split.
  - intros X. apply existsb_exists in X. destruct X as (c & _ & X). apply andb_true_iff in X. destruct X as [X1 X2].
    apply existsb_exists in X1. destruct X1 as (d' & Hd' & E). apply Z.eqb_eq in E. subst d'.
    apply existsb_exists in X2. destruct X2 as ([n op] & Hin & E). unfold entry_hooks in E. cbn [fst snd] in E. apply andb_true_iff in E. destruct E as [E1 E2].
    apply String.eqb_eq in E1. subst n. exists c, op. split; [exact Hin|]. split; [exact Hd'|]. destruct (wanted c op (dtype_to_atop d)); congruence.
  - intros (c & op & Hin & Hd & Hw). apply existsb_exists. exists c. split; [exact (in_allcats c)|]. apply andb_true_iff. split.
    + apply existsb_exists. exists d. split; [exact Hd|apply Z.eqb_refl].
    + apply existsb_exists. exists (name, op). split; [exact Hin|]. unfold entry_hooks. cbn [fst snd]. rewrite String.eqb_refl. destruct (wanted c op (dtype_to_atop d)); [reflexivity|congruence].
Qed.
Lemma hooks_it_pairs name d : hooks_it name d = existsb (Z.eqb d) (pairs name).
Proof.
  destruct (existsb (String.eqb name) (flat_map (fun c => map fst (mapping c)) allcats)) eqn:N.
  - apply existsb_exists in N. destruct N as (n & N1 & N2). apply String.eqb_eq in N2. subst n.
    destruct (existsb (Z.eqb d) dtypes) eqn:D.
    + apply existsb_exists in D. destruct D as (x & D1 & D2). apply Z.eqb_eq in D2. subst x. pose proof pairs_right as F. rewrite forallb_forall in F.
      specialize (F name N1). cbv beta in F. rewrite forallb_forall in F. apply eqb_prop. exact (F d D1).
    + assert (A : ~ In d dtypes). { intros C. rewrite (proj2 (existsb_exists _ _)) in D; [discriminate|]. exists d. split; [exact C|apply Z.eqb_refl]. }
      destruct (hooks_it name d) eqn:H1; [exfalso; apply hooks_it_spec in H1; destruct H1 as (c & op & _ & H1 & _); apply A; eapply dtypes_of_dtypes; eauto|].
      destruct (existsb (Z.eqb d) (pairs name)) eqn:H2; [|reflexivity]. exfalso. apply A. apply existsb_exists in H2. destruct H2 as (x & H2 & H3). apply Z.eqb_eq in H3. subst x.
      apply pairs_dtypes in H2. exact H2.
  - assert (A : forall c op, ~ In (name, op) (mapping c)).
    { intros c op C. rewrite (proj2 (existsb_exists _ _)) in N; [discriminate|]. exists name. split; [|apply String.eqb_refl]. apply in_flat_map. exists c. split; [apply in_allcats|exact (in_map fst _ _ C)]. }
    destruct (hooks_it name d) eqn:H1; [exfalso; apply hooks_it_spec in H1; destruct H1 as (c & op & H1 & _); exact (A _ _ H1)|].
    symmetry. apply pairs_unknown. exact N.
Qed.

(** C88.  Whatever calls came before: atop_info('name', d) reports the last accepted request for that function and machine type (3 threads at
    first, 7 for the trig functions) exactly for the pairs atop_info() lists, and changes nothing. *)
Theorem C88_info : forall obj has_loop h name d,
  answer obj has_loop h (WInfo name d) = if lists obj has_loop h name d then WDict (workers obj has_loop (rev h) name d) 0 else WFalse.
Proof.
  intros obj has_loop h name d. rewrite lists_slot. unfold answer. cbn [step]. destruct (get_from_dict _ name d) as [[[c op] a]|] eqn:G; [|reflexivity].
  cbn [snd]. apply found_inv in G. destruct (all_sound obj has_loop h) as (_ & _ & _ & M). now rewrite (M _ _ _ _ _ G).
Qed.
Print Assumptions C88_info.

(** C88.  atop_setworkers('name', d, w) answers the limit in force before when it takes effect, and False otherwise: when atop is disabled, the pair
    is not listed, or w is not 0..63. *)
Theorem C88_setworkers : forall obj has_loop h name d w,
  answer obj has_loop h (WSetWorkers name d w) = if accepted obj has_loop h name d w then WInt (workers obj has_loop (rev h) name d) else WFalse.
Proof.
  intros obj has_loop h name d w. unfold accepted, answer. rewrite lists_slot. destruct (all_sound obj has_loop h) as (_ & _ & E & M). rewrite <- E. cbn [step].
  destruct (enabled _); [|reflexivity]. destruct (get_from_dict _ name d) as [[[c op] a]|] eqn:G; [|reflexivity]. cbn [andb].
  destruct ((0 <=? w) && (w <? 64)); [|reflexivity]. cbn [snd]. apply found_inv in G. now rewrite (M _ _ _ _ _ G).
Qed.
Print Assumptions C88_setworkers.

(** C88.  The limit a call of a replaced loop runs under is that of its own ufunc and machine type. *)
Theorem C88_governs : forall obj has_loop h name d o n, numpy_objects obj -> listed name ->
  loop_threads (run obj has_loop wstart h) (obj name) d o = Some n ->
  exists name', (name' = name \/ (In name inverts /\ In name' inverts)) /\ lists obj has_loop h name' d = true /\ n = workers obj has_loop (rev h) name' d.
Proof.
  intros obj has_loop h name d o n NO Hl H. unfold loop_threads in H. destruct (all_sound obj has_loop h) as (K & _ & _ & M).
  destruct (loops _ (obj name) d o) as [|c op a] eqn:L; [discriminate|]. injection H as <-. destruct (proj1 K _ _ _ _ _ _ L) as (name' & On & Hin).
  destruct (proj2 K _ _ _ _ _ Hin) as (_ & _ & Hm & _). assert (Hl' : listed name') by (exists c, op; exact Hm).
  exists name'. split; [|split; [rewrite lists_slot, (found _ _ _ _ _ _ _ K Hin); reflexivity|exact (M _ _ _ _ _ Hin)]].
  destruct (NO name' name Hl' Hl On) as [-> | [N1 N2]]; auto.
Qed.
Print Assumptions C88_governs.

(** C88.  So a call of the loop wakes [woken] workers, where [getworkers] is what thread_getworkers() reports: the limit, but never more than that, and
    all of them for a limit of 0; never none and never a negative number. *)
Lemma workers_range obj has_loop name d : forall rh, 0 <= workers obj has_loop rh name d < 64.
Proof.
  induction rh as [|q rh IH]; cbn [workers]; [destruct (existsb _ trig_names); lia|]. destruct q; try exact IH.
  destruct (_ && _ && accepted obj has_loop (rev rh) name0 d0 w) eqn:E; [|exact IH]. apply andb_true_iff in E. destruct E as [_ E]. unfold accepted in E.
  apply andb_true_iff in E. destruct E as [E E2]. apply andb_true_iff in E. destruct E as [_ E1]. lia.
Qed.
Theorem C88_woken : forall obj has_loop h name d o n getworkers, numpy_objects obj -> listed name -> 1 <= getworkers ->
  loop_threads (run obj has_loop wstart h) (obj name) d o = Some n ->
  let woken := effective_wakeup getworkers n in
  1 <= woken <= getworkers /\
  exists name', (name' = name \/ (In name inverts /\ In name' inverts)) /\ lists obj has_loop h name' d = true /\
    let w := workers obj has_loop (rev h) name' d in (w = 0 -> woken = getworkers) /\ (w <> 0 -> woken = Z.min w getworkers).
Proof.
  intros obj has_loop h name d o n g NO Hl Hg H woken. destruct (C88_governs obj has_loop h name d o n NO Hl H) as (name' & A & B & ->).
  pose proof (workers_range obj has_loop name' d (rev h)) as R. unfold woken, effective_wakeup. split.
  - destruct (_ <=? 0) eqn:E; [lia|]. destruct (_ <? g) eqn:E2; lia.
  - exists name'. split; [exact A|]. split; [exact B|]. cbv zeta. split; intros Hw.
    + now rewrite Hw.
    + destruct (_ <=? 0) eqn:E; [lia|]. destruct (_ <? g) eqn:E2; lia.
Qed.
Print Assumptions C88_woken.

(** C88.  With a NumPy that has its loops, atop_info() lists exactly the pairs written out in [pairs], from the first initialize() on. *)
Theorem C88_listed : forall obj has_loop h name d, numpy_loops_present obj has_loop ->
  lists obj has_loop h name d = existsb asks_init h && existsb (Z.eqb d) (pairs name).
Proof.
  intros obj has_loop h name d A. rewrite <- hooks_it_pairs, lists_slot. destruct (all_sound obj has_loop h) as (K & _).
  rewrite proc_after in *. destruct (existsb asks_init h); [|reflexivity]. cbn [hooked andb] in *.
  destruct (entered_all obj has_loop all_ufuncs fresh (availability obj has_loop A)) as [_ I].
  destruct (hooks_it name d) eqn:H.
  - apply hooks_it_spec in H. destruct H as (c & op & H1 & H2 & H3). destruct (I c (mapping c) (dtypes_of c) name op d (all_ufuncs_all c) H1 H2 H3) as [[[c' op'] a'] Hin].
    now rewrite (found _ _ _ _ _ _ _ K Hin).
  - destruct (get_from_dict _ name d) as [[[c op] a]|] eqn:G; [|reflexivity]. apply found_inv in G. destruct (proj2 K _ _ _ _ _ G) as (-> & D & M & W).
    rewrite (proj2 (hooks_it_spec name d)) in H; [discriminate|]. exists c, op. auto.
Qed.
Print Assumptions C88_listed.

(** ---------- np.invert ---------- *)
Section Invert.
  Variable obj : string -> Z.
  Variable has_loop : Z -> Z -> Z -> bool.
  Definition only_in (u : Z) (ds : list Z) (h : hooks) : Prop := forall d o a, loops h u d o = Stub Unary 4 a -> In d ds.
  Lemma inverts_want a : wanted Unary 28 a = wanted Unary 4 a.
  Proof. reflexivity. Qed.
  Lemma invert_replaced : forall ds h, obj "bitwise_not" = obj "invert" -> incl ds dtypes -> wired obj wanted h -> only_in (obj "invert") ds h ->
    snd (hook_dtypes obj has_loop wanted Unary "bitwise_not" 28 ds h) = true -> only_in (obj "invert") [] (fst (hook_dtypes obj has_loop wanted Unary "bitwise_not" 28 ds h)).
  Proof.
    induction ds as [|d0 ds IH]; intros h Ho Id W O; cbn [hook_dtypes]; [intros _; exact O|].
    assert (Hb : In ("bitwise_not"%string, 28) (mapping Unary)) by (cbn; auto 25).
    pose proof (wired_dtypes obj has_loop wanted Unary "bitwise_not" 28 Hb [d0] h (fun x Hx => Id x (match Hx with or_introl e => or_introl e | or_intror f => match f : False with end end)) W) as W'.
    cbn [hook_dtypes] in W'. unfold hook_dtype in *. cbv zeta in *. rewrite inverts_want in *.
    destruct (wanted Unary 4 (dtype_to_atop d0)) as [oa|] eqn:Ew; [destruct (has_loop _ d0 (out_dtype d0 oa)) eqn:L; [|discriminate]|].
    - cbn [fst] in W'. apply IH; [exact Ho|intros x Hx; apply Id; now right|exact W'|].
      intros d o a H. destruct (Z.eq_dec d d0) as [-> | N].
      + exfalso. cbn [replace loops] in H. destruct ((obj "invert" =? obj "bitwise_not") && (d0 =? d0) && (o =? out_dtype d0 oa)) eqn:E; [discriminate|].
        destruct (W _ _ _ _ _ _ H) as (A1 & _ & name & oa' & _ & _ & A2 & A3). subst a. rewrite Ew in A2. injection A2 as ->. rewrite Ho, A3, !Z.eqb_refl in E. discriminate.
      + assert (H' : loops h (obj "invert") d o = Stub Unary 4 a) by (cbn [replace loops] in H; destruct (Z.eqb_spec d d0); [contradiction|rewrite andb_false_r in H; exact H]).
        destruct (O _ _ _ H') as [-> | X]; [contradiction|exact X].
    - apply IH; [exact Ho|intros x Hx; apply Id; now right|exact W|]. intros d o a H. destruct (O _ _ _ H) as [<- | X]; [|exact X].
      exfalso. destruct (W _ _ _ _ _ _ H) as (-> & _ & name & oa' & _ & _ & A2 & _). congruence.
  Qed.
  Lemma trig_dtypes_keep u name op : forall ds h, only_in u [] h -> only_in u [] (fst (hook_dtypes obj has_loop wanted Trig name op ds h)).
  Proof.
    induction ds as [|d ds IH]; intros h O; cbn [hook_dtypes]; [exact O|]. unfold hook_dtype. cbv zeta. destruct (wanted Trig op (dtype_to_atop d)) as [oa|]; [|now apply IH].
    destruct (has_loop _ d _); [|exact O]. apply IH. intros d1 o a H. cbn [replace loops] in H. destruct (_ && _); [discriminate|]. exact (O _ _ _ H).
  Qed.
  Lemma trig_names_keep u ds : forall m h, only_in u [] h -> only_in u [] (fst (hook_names obj has_loop wanted Trig m ds h)).
  Proof.
    induction m as [|[name op] m IH]; intros h O; cbn [hook_names]; [exact O|]. pose proof (trig_dtypes_keep u name op ds h O) as O'.
    destruct (hook_dtypes obj has_loop wanted Trig name op ds h) as [h' []]; [|exact O']. now apply IH.
  Qed.
  Lemma hook_names_app c ds m1 m2 : forall h, hook_names obj has_loop wanted c (m1 ++ m2) ds h =
    let '(h', ok) := hook_names obj has_loop wanted c m1 ds h in if ok then hook_names obj has_loop wanted c m2 ds h' else (h', false).
  Proof.
    induction m1 as [|[name op] m1 IH]; intros h; cbn [hook_names app]; [reflexivity|]. destruct (hook_dtypes obj has_loop wanted c name op ds h) as [h' []]; [apply IH|reflexivity].
  Qed.
  Lemma invert_gone : numpy_loops_present obj has_loop -> obj "bitwise_not" = obj "invert" ->
    only_in (obj "invert") [] (fst (hook_all_ok obj has_loop all_ufuncs fresh)).
  Proof.
    intros A Ho. pose proof (availability obj has_loop A) as Av.
    assert (W0 : wired obj wanted fresh) by (intros u d o c op a H; discriminate).
    unfold all_ufuncs. cbn [hook_all_ok].
    pose proof (install_names obj has_loop wanted Binary dtypes gBinaryMapping fresh (Av _ _ _ (all_ufuncs_all Binary))) as [B1 _].
    pose proof (wired_names obj has_loop wanted Binary dtypes (incl_refl _) gBinaryMapping fresh (incl_refl _) W0) as W1.
    destruct (hook_names obj has_loop wanted Binary gBinaryMapping dtypes fresh) as [h1 ok1]. cbn [fst snd] in B1, W1. subst ok1.
    pose proof (install_names obj has_loop wanted Compare dtypes gCompareMapping h1 (Av _ _ _ (all_ufuncs_all Compare))) as [B2 _].
    pose proof (wired_names obj has_loop wanted Compare dtypes (incl_refl _) gCompareMapping h1 (incl_refl _) W1) as W2.
    destruct (hook_names obj has_loop wanted Compare gCompareMapping dtypes h1) as [h2 ok2]. cbn [fst snd] in B2, W2. subst ok2.
    pose proof (install_names obj has_loop wanted Unary dtypes gUnaryMapping h2 (Av _ _ _ (all_ufuncs_all Unary))) as [B3 _].
    assert (S : gUnaryMapping = (removelast gUnaryMapping ++ [("bitwise_not"%string, 28)])%list) by reflexivity.
    rewrite S in B3 |- *. rewrite hook_names_app in B3 |- *.
    assert (W3 : wired obj wanted (fst (hook_names obj has_loop wanted Unary (removelast gUnaryMapping) dtypes h2))).
    { apply wired_names; [apply incl_refl| |exact W2]. intros x Hx. cbn [mapping]. rewrite S. apply in_or_app. now left. }
    destruct (hook_names obj has_loop wanted Unary (removelast gUnaryMapping) dtypes h2) as [h3 ok3]. cbn [fst] in W3. destruct ok3; [|discriminate].
    cbn [hook_names] in B3 |- *.
    assert (O3 : only_in (obj "invert") dtypes h3) by (intros d o a H; destruct (W3 _ _ _ _ _ _ H) as (_ & D & _); exact D).
    pose proof (invert_replaced dtypes h3 Ho (incl_refl _) W3 O3) as G.
    destruct (hook_dtypes obj has_loop wanted Unary "bitwise_not" 28 dtypes h3) as [h4 ok4]. cbn [fst snd] in *. destruct ok4; [|discriminate]. specialize (G eq_refl).
    pose proof (trig_names_keep (obj "invert") trig_dtypes gTrigMapping h4 G) as T.
    destruct (hook_names obj has_loop wanted Trig gTrigMapping trig_dtypes h4) as [h5 ok5]. destruct ok5; exact T.
  Qed.
End Invert.
(** C88.  With a NumPy that has its loops, it is always the limit of bitwise_not that governs np.invert (which is np.bitwise_not); the one set for
    "invert" never does. *)
Theorem C88_invert : forall obj has_loop h d o n, numpy_objects obj -> numpy_loops_present obj has_loop -> obj "bitwise_not"%string = obj "invert"%string ->
  loop_threads (run obj has_loop wstart h) (obj "invert"%string) d o = Some n -> n = workers obj has_loop (rev h) "bitwise_not" d.
Proof.
  intros obj has_loop h d o n NO A Ho H. unfold loop_threads in H. destruct (all_sound obj has_loop h) as (K & _ & _ & M).
  destruct (loops _ (obj "invert"%string) d o) as [|c op a] eqn:L; [discriminate|]. injection H as <-. destruct (proj1 K _ _ _ _ _ _ L) as (name & On & Hin).
  destruct (proj2 K _ _ _ _ _ Hin) as (_ & _ & Hm & _). rewrite (M _ _ _ _ _ Hin).
  assert (Hl : listed name) by (exists c, op; exact Hm). assert (Hi : listed "invert") by (exists Unary, 4; cbn; auto 25).
  assert (N : In name inverts) by (destruct (NO name "invert"%string Hl Hi On) as [-> | [N _]]; [now left|exact N]). destruct N as [<- |[<- |[]]]; [|reflexivity].
  exfalso. rewrite proc_after in L. destruct (existsb asks_init h); [|discriminate].
  assert (E : c = Unary /\ op = 4).
  { destruct c; cbn in Hm; repeat (destruct Hm as [Hm|Hm]; [try discriminate; injection Hm as <-; auto|]); contradiction. }
  destruct E as [-> ->]. exact (invert_gone obj has_loop A Ho _ _ _ L).
Qed.
Print Assumptions C88_invert.

(** a NumPy as it is *)
Example C88_nonvacuous : let h := [WInit true; WDisable; WSetWorkers "add" 7 12; WEnable; WSetWorkers "add" 9 5; WSetWorkers "add" 7 64; WSetWorkers "add" 11 0] in
  answer np_names np_has h (WInfo "add" 7) = WDict 5 0 /\ answer np_names np_has h (WInfo "add" 8) = WDict 3 0 /\ answer np_names np_has h (WInfo "sin" 12) = WDict 7 0 /\
  answer np_names np_has h (WSetWorkers "add" 11 1) = WInt 0 /\ answer np_names np_has h (WInfo "sin" 7) = WFalse /\
  loop_threads (run np_names np_has wstart h) (np_names "add") 7 7 = Some 5 /\ effective_wakeup 11 5 = 5 /\ effective_wakeup 3 5 = 3 /\ effective_wakeup 3 0 = 3.
Proof. vm_compute. repeat split. Qed.
(** FALSE of the code for np.invert: its loops have been replaced a second time under the name bitwise_not, so the accepted request for "invert" is
    reported back by atop_info and governs nothing; and atop_info() before initialize() has no answer. *)
Theorem C88_refuted : let h := [WInit true; WSetWorkers "invert" 5 0] in
  answer np_names np_has [WInit true] (WSetWorkers "invert" 5 0) = WInt 3 /\ answer np_names np_has h (WInfo "invert" 5) = WDict 0 0 /\
  loop_threads (run np_names np_has wstart h) (np_names "invert") 5 5 = Some 3 /\ answer np_names np_has [] WInfoAll = WNull.
Proof. vm_compute. repeat split. Qed.
Print Assumptions C88_refuted.
