(** PySort_Props.v - C77: pn.sort, pn.argsort, pn.argmin, pn.argmax and pn.searchsorted against NumPy's. *)
From Coq Require Import String.
From Verif Require Import Base Layout_Props PySort_Model.

(** ---------- specification ---------- *)
(** index number [ax] of a multi-index replaced by j *)
Fixpoint set_index (idx : list Z) (ax : nat) (j : Z) : list Z :=
  match idx, ax with [], _ => [] | _ :: r, O => j :: r | i :: r, S ax' => i :: set_index r ax' j end.
Section Spec.
  Context {T kind order : Type}.
  Variable le : T -> T -> Prop.
  (** the items of the lane through [idx] along axis number [ax] *)
  Definition lane (a : @ndarray T) (ax : nat) (idx : list Z) : list (option T) :=
    map (fun j => nth_error (items a) (Z.to_nat (c_number (shape a) (set_index idx ax j)))) (zrange 0 (nth ax (shape a) 0)).
  Definition ascending (l : list (option T)) : Prop :=
    forall i j x y, (i < j)%nat -> nth_error l i = Some (Some x) -> nth_error l j = Some (Some y) -> le x y.
  (** Python's axis number [k] of an array of [d] dimensions: negative ones from the end *)
  Definition is_axis (k : Z) (d ax : nat) : Prop := (ax < d)%nat /\ (k = Z.of_nat ax \/ k = Z.of_nat ax - Z.of_nat d).
  (** r is a sorted along the axis *)
  Definition sorted_along (a r : @ndarray T) (k : Z) : Prop :=
    shape r = shape a /\ List.length (items r) = List.length (items a) /\
    forall ax, is_axis k (List.length (shape a)) ax -> forall idx, inside (shape a) idx -> Permutation (lane a ax idx) (lane r ax idx) /\ ascending (lane r ax idx).
  (** ndarray.sort does what it documents, if it does not raise *)
  Definition sorts (method : ndarray -> Z -> kind -> option order -> @ndarray T * option exn) : Prop :=
    forall a k kd r, method a k kd None = (r, None) -> sorted_along a r k.
  (** [r] is a new array, and every array there was still has its contents *)
  Definition new_array (w w' : @world T) (r : nat) : Prop :=
    (next w <= r < next w')%nat /\ forall i, (i < next w)%nat -> arr w' i = arr w i.
  (** the array an argument stands for *)
  Definition stands_for (w : @world T) (o : obj) (a : @ndarray T) : Prop :=
    match o with Arr id => (id < next w)%nat /\ a = arr w id | Like c => c = Ok a end.
End Spec.

(** ---------- C77 ---------- *)
Ltac updin E := cbn [arr next] in E; rewrite ?Nat.eqb_refl in E;
  repeat match type of E with context [Nat.eqb ?a ?b] => rewrite (proj2 (Nat.eqb_neq a b)) in E by lia end.
Ltac upd := cbn [arr next] in *; repeat (rewrite ?Nat.eqb_refl, ?(fun a b (H : a <> b) => proj2 (Nat.eqb_neq a b) H) by lia).

(** pn.sort(x, axis) returns a new array, x sorted along the axis, and changes no array; it raises what asanyarray or the method raises. *)
Theorem C77_sort_axis : forall T kind order (le : T -> T -> Prop) (method : ndarray -> Z -> kind -> option order -> ndarray * option exn),
  sorts le method ->
  forall (w w' : world) (o : obj) (k : Z) (kd : kind) (res : outcome nat),
    sort method o (Some k) kd None w = (w', res) ->
    (forall a, stands_for w o a -> forall e, snd (method a k kd None) = e ->
       match e with
       | Some e => res = Raise e
       | None => exists r, res = Ok r /\ new_array w w' r /\ sorted_along le a (arr w' r) k
       end) /\
    (forall e, o = Like (Raise e) -> res = Raise e) /\
    (forall i, (i < next w)%nat -> arr w' i = arr w i).
Proof.
  intros T kind order le method HM w w' o k kd res E. cbn [sort sort_axis] in E. destruct o as [id|[a0|e0]].
  - cbn [asanyarray ret bind copy alloc sort_method] in E. unfold sort_axis, bind, asanyarray, ret, copy, alloc, sort_method in E. updin E.
    destruct (method (arr w id) k kd None) as [a' e'] eqn:M. split; [|split; [intros e H; discriminate H|]].
    + intros a [Hid ->] e He. rewrite M in He. cbn in He. subst e'. destruct e as [e|]; injection E as <- <-; [reflexivity|].
      exists (next w). split; [reflexivity|]. split.
      * split; [upd; lia|]. intros i Hi. upd. reflexivity.
      * upd. eapply HM, M.
    + intros i Hi. destruct e' as [e|]; injection E as <- <-; upd; reflexivity.
  - unfold sort_axis, bind, asanyarray, ret, copy, alloc, sort_method in E. updin E.
    destruct (method a0 k kd None) as [a' e'] eqn:M. split; [|split; [intros e H; discriminate H|]].
    + intros a H e He. cbn in H. injection H as <-. rewrite M in He. cbn in He. subst e'. destruct e as [e|]; injection E as <- <-; [reflexivity|].
      exists (S (next w)). split; [reflexivity|]. split.
      * split; [upd; lia|]. intros i Hi. upd. reflexivity.
      * upd. eapply HM, M.
    + intros i Hi. destruct e' as [e|]; injection E as <- <-; upd; reflexivity.
  - unfold sort_axis, bind, asanyarray in E. injection E as <- <-. split; [|split].
    + intros a H. discriminate H.
    + intros e H. injection H as <-. reflexivity.
    + reflexivity.
Qed.
Print Assumptions C77_sort_axis.

(** pn.sort(x, axis=None) should return the sorted flattened array.  Whenever the items can be sorted at all, it returns them
    flattened in C order and unsorted, whatever the method does: *)
Theorem C77_axis_none_returns_unsorted : forall T kind order (method : ndarray -> Z -> kind -> option order -> @ndarray T * option exn)
  (w : world) (o : obj) (a : ndarray) (kd : kind) (ord : option order),
  stands_for w o a ->
  snd (method (mkArr [Z.of_nat (List.length (items a))] (items a)) (-1) kd None) = None ->
  exists w' r, sort method o None kd ord w = (w', Ok r) /\ new_array w w' r /\
    shape (arr w' r) = [Z.of_nat (List.length (items a))] /\ items (arr w' r) = items a.
Proof.
  intros T kind order method w o a kd ord HS HM. destruct o as [id|[a0|e0]]; cbn in HS; [destruct HS as [Hid ->]|injection HS as ->|discriminate HS].
  - unfold sort, sort_axis, bind, try, asanyarray, ret, flatten, copy, alloc, sort_method. upd.
    destruct (method _ _ kd None) as [a' e']. cbn in HM. subst e'. do 2 eexists. split; [reflexivity|]. split; [split|].
    + upd. lia.
    + intros i Hi. upd. reflexivity.
    + upd. split; reflexivity.
  - unfold sort, sort_axis, bind, try, asanyarray, ret, flatten, copy, alloc, sort_method. upd.
    destruct (method _ _ kd None) as [a' e']. cbn in HM. subst e'. do 2 eexists. split; [reflexivity|]. split; [split|].
    + upd. lia.
    + intros i Hi. upd. reflexivity.
    + upd. split; reflexivity.
Qed.
Print Assumptions C77_axis_none_returns_unsorted.

(** So for every array whose items are not already in ascending order the documented result is missed *)
Theorem C77_axis_none_refuted : forall T kind order (le : T -> T -> Prop) (method : ndarray -> Z -> kind -> option order -> @ndarray T * option exn)
  (w : world) (id : nat) (kd : kind) i j x y,
  (id < next w)%nat -> (i < j)%nat -> nth_error (items (arr w id)) i = Some x -> nth_error (items (arr w id)) j = Some y -> ~ le x y ->
  snd (method (mkArr [Z.of_nat (List.length (items (arr w id)))] (items (arr w id))) (-1) kd None) = None ->
  exists w' r, sort method (Arr id) None kd None w = (w', Ok r) /\ ~ ascending le (map Some (items (arr w' r))).
Proof.
  intros T kind order le method w id kd i j x y Hid Hij Hx Hy Hle HM.
  destruct (C77_axis_none_returns_unsorted T kind order method w (Arr id) (arr w id) kd None (conj Hid eq_refl) HM) as (w' & r & E & _ & _ & Hi).
  exists w', r. split; [exact E|]. intros A. rewrite Hi in A. apply Hle, (A i j x y Hij); rewrite nth_error_map; [rewrite Hx|rewrite Hy]; reflexivity.
Qed.
Print Assumptions C77_axis_none_refuted.

(** If sorting a copy raises, the flattened array is sorted in place and returned, or its exception raised: NumPy's behaviour. *)
Theorem C77_axis_none_fallback : forall T kind order (le : T -> T -> Prop) (method : ndarray -> Z -> kind -> option order -> @ndarray T * option exn)
  (w w' : world) (id : nat) (kd : kind) (ord : option order) (e : exn) (res : outcome nat),
  (id < next w)%nat -> let flat := mkArr [Z.of_nat (List.length (items (arr w id)))] (items (arr w id)) in
  snd (method flat (-1) kd None) = Some e ->
  sort method (Arr id) None kd ord w = (w', res) ->
  match method flat (-1) kd ord with
  | (a, None) => exists r, res = Ok r /\ new_array w w' r /\ arr w' r = a
  | (_, Some e') => res = Raise e'
  end.
Proof.
  intros T kind order le method w w' id kd ord e res Hid flat HM E.
  unfold sort, sort_axis, bind, try, asanyarray, ret, flatten, copy, alloc, sort_method in E. updin E. fold flat in E.
  destruct (method flat (-1) kd None) as [a' e'] eqn:M1. cbn in HM. subst e'. updin E. fold flat in E.
  destruct (method flat (-1) kd ord) as [a2 e2] eqn:M2. destruct e2 as [e2|]; injection E as <- <-; [reflexivity|].
  exists (next w). split; [reflexivity|]. split; [split|].
  - upd. lia.
  - intros i Hi. upd. reflexivity.
  - upd. reflexivity.
Qed.
Print Assumptions C77_axis_none_fallback.

(** pn.argsort, argmin, argmax, searchsorted.  NumPy's function gives: the object's own method if it has one that takes the arguments;
    else the method of the object converted to an array, wrapped again if the object knows how. *)
Definition numpy_gives {R} (o : @target R) (r : outcome R) : Prop :=
  match bound o with
  | Some (Ok v) => r = Ok v
  | Some (Raise TypeError) | None =>
      match converted o with Ok v => r = Ok (match wrap o with Some f => f v | None => v end) | Raise e => r = Raise e end
  | Some (Raise e) => r = Raise e
  end.
(** the answer is NumPy's, except exactly for an object with __array_wrap__ that has to be converted: then NameError *)
Definition needs_wrapping {R} (o : @target R) : Prop :=
  (bound o = None \/ bound o = Some (Raise TypeError)) /\ (exists v, converted o = Ok v) /\ wrap o <> None.
Theorem C77_wrapfunc_partial : forall R (o : @target R), ~ needs_wrapping o -> numpy_gives o (_wrapfunc o).
Proof.
  intros R [b c wr] H. unfold needs_wrapping, numpy_gives, _wrapfunc, _wrapit in *. cbn in *.
  destruct b as [[v|[]]|]; try reflexivity; destruct c as [v|e]; try reflexivity; destruct wr as [f|]; try reflexivity;
    exfalso; apply H; (split; [tauto|]); (split; [eauto|discriminate]).
Qed.
Theorem C77_wrapfunc_refuted : forall R (o : @target R), needs_wrapping o -> _wrapfunc o = Raise NameError /\ ~ numpy_gives o (_wrapfunc o).
Proof.
  intros R [b c wr] (H1 & (v & H2) & H3). unfold numpy_gives, _wrapfunc, _wrapit. cbn in *. subst c. destruct wr as [f|]; [|congruence].
  change (lookup "mu") with (@Raise unit NameError). destruct H1 as [-> | ->]; split; try reflexivity; discriminate.
Qed.
Print Assumptions C77_wrapfunc_partial.
Print Assumptions C77_wrapfunc_refuted.

(** ---------- the hypotheses are met ---------- *)
(** the docstring's example [[1,4],[3,1]]: np.sort(a, axis=None) is [1,1,3,4]; insertion sort stands in for the method on 1-D arrays *)
Fixpoint insert (x : Z) (l : list Z) : list Z := match l with [] => [x] | y :: r => if x <=? y then x :: l else y :: insert x r end.
Definition example_method (a : @ndarray Z) (k : Z) (kd : unit) (ord : option unit) : @ndarray Z * option exn :=
  if match shape a with [n] => (n =? Z.of_nat (List.length (items a))) | _ => false end && ((k =? -1) || (k =? 0))
  then (mkArr (shape a) (fold_right insert [] (items a)), None) else (a, Some Other).
Lemma insert_perm x l : Permutation (x :: l) (insert x l).
Proof. induction l as [|y l IH]; cbn; [reflexivity|]. destruct (x <=? y); [reflexivity|]. etransitivity; [apply perm_swap|now constructor]. Qed.
Lemma insert_lb x y l : y <= x -> Forall (Z.le y) l -> Forall (Z.le y) (insert x l).
Proof. intros H F. induction F as [|z l Hz F IH]; cbn; [repeat constructor; exact H|]. destruct (x <=? z); repeat constructor; auto. Qed.
Inductive incr : list Z -> Prop := incr_nil : incr [] | incr_cons x l : Forall (Z.le x) l -> incr l -> incr (x :: l).
Lemma insert_incr x l : incr l -> incr (insert x l).
Proof.
  induction 1 as [|y l F I IH]; cbn; [repeat constructor|]. destruct (Z.leb_spec x y).
  - constructor; [constructor; [lia|]|now constructor]. eapply Forall_impl; [|exact F]. cbn. intros; lia.
  - constructor; [apply insert_lb; [lia|exact F]|exact IH].
Qed.
Lemma incr_nth l : incr l -> forall i j x y, (i < j)%nat -> nth_error l i = Some x -> nth_error l j = Some y -> x <= y.
Proof.
  induction 1 as [|z l F I IH]; intros i j x y Hij Hx Hy; [destruct i; discriminate|]. destruct j as [|j]; [lia|]. destruct i as [|i]; cbn in *.
  - injection Hx as <-. rewrite Forall_forall in F. eapply F, nth_error_In, Hy.
  - eapply IH; [|exact Hx|exact Hy]. lia.
Qed.
Lemma nths_from (l pre : list Z) : map (fun j => nth_error (pre ++ l) (Z.to_nat j)) (zrange (Z.of_nat (List.length pre)) (Z.of_nat (List.length pre + List.length l))) = map Some l.
Proof.
  revert pre. induction l as [|x l IH]; intros pre.
  - rewrite zrange_nil by (cbn [List.length]; lia). reflexivity.
  - rewrite (zrange_split _ (Z.of_nat (List.length pre) + 1)) by (cbn [List.length]; lia). rewrite map_app.
    replace (zrange (Z.of_nat (List.length pre)) (Z.of_nat (List.length pre) + 1)) with [Z.of_nat (List.length pre)].
    2:{ unfold zrange. replace (Z.to_nat _) with 1%nat by lia. reflexivity. }
    cbn [map app]. rewrite Nat2Z.id, nth_error_app2, Nat.sub_diag by lia. cbn [nth_error]. f_equal.
    specialize (IH (pre ++ [x])). rewrite <- app_assoc in IH. cbn [app] in IH. rewrite <- IH. rewrite app_length. cbn [List.length]. f_equal. f_equal; lia.
Qed.
Lemma lane_1d (l : list Z) idx : inside [Z.of_nat (List.length l)] idx -> lane (mkArr [Z.of_nat (List.length l)] l) 0 idx = map Some l.
Proof.
  intros H. inversion H as [|? i ? is' Hi H']; subst. inversion H'; subst. unfold lane. cbn [shape items nth set_index].
  rewrite <- (nths_from l []). cbn [List.length app Nat.add]. apply map_ext. intros j. f_equal. cbn [c_number prod]. lia.
Qed.
Lemma example_sorts : sorts Z.le example_method.
Proof.
  intros a k kd r. unfold example_method. destruct a as [[|n [|]] l]; cbn [shape items andb]; try discriminate.
  destruct (Z.eqb_spec n (Z.of_nat (List.length l))) as [->|]; cbn [andb]; [|discriminate]. destruct ((k =? -1) || (k =? 0)) eqn:Ek; [|discriminate].
  intros E. injection E as <-.
  assert (P : Permutation l (fold_right insert [] l)) by (induction l as [|x l IH]; cbn; [reflexivity|]; etransitivity; [constructor; exact IH|apply insert_perm]).
  assert (I : incr (fold_right insert [] l)) by (clear; induction l; cbn; [constructor|now apply insert_incr]).
  set (l' := fold_right insert [] l) in *. pose proof (Permutation_length P) as L.
  split; [reflexivity|]. split; [cbn; congruence|]. intros ax [Hax _] idx Hin. cbn [shape List.length] in *. assert (ax = 0%nat) as -> by lia.
  rewrite lane_1d by exact Hin. rewrite L in *. rewrite lane_1d by exact Hin. split.
  - now apply Permutation_map.
  - intros i j x y Hij Hx Hy. rewrite nth_error_map in Hx, Hy.
    destruct (nth_error l' i) eqn:Ei; [|discriminate]. destruct (nth_error l' j) eqn:Ej; [|discriminate]. injection Hx as ->. injection Hy as ->. eapply incr_nth; eauto.
Qed.
Definition doc_world : world := mkW (fun _ => mkArr [2; 2] [1; 4; 3; 1]) 1.
Example C77_nonvacuous :
  sorts Z.le example_method /\
  (* axis=None on the docstring's array: unsorted *)
  (exists w' r, sort example_method (Arr 0) None tt None doc_world = (w', Ok r) /\ items (arr w' r) = [1; 4; 3; 1] /\ ~ ascending Z.le (map Some (items (arr w' r)))) /\
  (* a list along axis -1: sorted *)
  (exists w' r, sort example_method (Like (Ok (mkArr [4] [1; 4; 3; 1]))) (Some (-1)) tt None doc_world = (w', Ok r) /\ items (arr w' r) = [1; 1; 3; 4]) /\
  (* pn.argsort of an object with __array_wrap__ and no method argsort *)
  needs_wrapping (mkTarget None (Ok 5) (Some (fun x : Z => x))) /\ ~ needs_wrapping (mkTarget (Some (Ok 5)) (Ok 5) (Some (fun x : Z => x))).
Proof.
  split; [exact example_sorts|]. split; [|split; [|split]].
  - do 2 eexists. split; [reflexivity|]. split; [reflexivity|]. intros A. specialize (A 1%nat 2%nat 4 3 ltac:(lia) eq_refl eq_refl). lia.
  - do 2 eexists. split; reflexivity.
  - split; [now left|]. split; [now exists 5|discriminate].
  - intros ([C|C] & _); discriminate C.
Qed.
